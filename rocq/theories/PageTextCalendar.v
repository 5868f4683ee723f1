(** The dates of PageText.v are those of the Gregorian calendar. *)
From Coq Require Import String List NArith ZArith Bool Lia Arith.
From Verif Require Import Base PageText PageTextSpec.
Import ListNotations.
Local Open Scope list_scope.

(** ** The calendar *)
Definition triple (d : date) : Z * Z * Z := (d_year d, d_month d, d_day d).
Definition next_dayb (a b : Z * Z * Z) : bool :=
  let '(y, m, d) := a in let '(y', m', d') := b in
  ((d <? month_length y m) && (y' =? y) && (m' =? m) && (d' =? d + 1) ||
   (d =? month_length y m) && (m <? 12) && (y' =? y) && (m' =? m + 1) && (d' =? 1) ||
   (m =? 12) && (d =? 31) && (y' =? y + 1) && (m' =? 1) && (d' =? 1))%Z.
Lemma next_dayb_ok : forall a b, next_dayb a b = true -> next_day a b.
Proof.
  intros [[y m] d] [[y' m'] d'] H. unfold next_dayb in H. rewrite !orb_true_iff, !andb_true_iff, !Z.eqb_eq, !Z.ltb_lt in H.
  destruct H as [[H|H]|H]; decompose [and] H; subst; constructor; assumption.
Qed.
Definition in_month (d : date) : bool := ((1 <=? d_month d) && (d_month d <=? 12) && (1 <=? d_day d) && (d_day d <=? 31))%Z.
Fixpoint walk (n : nat) (z : Z) (d : date) : bool :=
  match n with O => true | S n' => let d' := date_of_day (z + 1) in if in_month d then if next_dayb (triple d) (triple d') then walk n' (z + 1) d' else false else false end.
Definition good_day (z : Z) : Prop := in_month (date_of_day z) = true /\ next_dayb (triple (date_of_day z)) (triple (date_of_day (z + 1))) = true.
Definition block (n : nat) (z : Z) : bool := walk n z (date_of_day z).
Lemma walk_ok : forall n z, block n z = true -> forall i, (0 <= i < Z.of_nat n)%Z -> good_day (z + i).
Proof.
  unfold block. induction n as [|n IH]; intros z H i L; [lia|]. cbn [walk] in H. destruct (in_month (date_of_day z)) eqn:E1; [|discriminate].
  destruct (next_dayb (triple (date_of_day z)) (triple (date_of_day (z + 1)))) eqn:E2; [|discriminate].
  destruct (Z.eq_dec i 0) as [-> | NZ]; [rewrite Z.add_0_r; split; assumption|]. replace (z + i)%Z with (z + 1 + (i - 1))%Z by lia. apply IH; [exact H|lia].
Qed.
Lemma era_ok : forallb (fun a => block 400 (400 * Z.of_nat a - 719468)) (seq 0 366) = true.
Proof. vm_compute. reflexivity. Qed.
Lemma forallb_at : forall A (f : A -> bool) l, forallb f l = true -> forall a, In a l -> f a = true.
Proof. intros A f l H. now apply forallb_forall. Qed.
Lemma era_walk : forall a, (a < 366)%nat -> block 400 (400 * Z.of_nat a - 719468) = true.
Proof. intros a L. assert (In a (seq 0 366)) as I by (apply in_seq; lia). exact (forallb_at _ _ _ era_ok a I). Qed.
Lemma era_day : forall k, (0 <= k < 146097)%Z -> good_day (k - 719468).
Proof.
  intros k H.
  pose proof (Z.div_mod k 400 ltac:(lia)) as D. pose proof (Z.mod_pos_bound k 400 ltac:(lia)) as B.
  assert (0 <= k / 400)%Z by (apply Z.div_pos; lia). assert (k / 400 < 366)%Z by (apply Z.div_lt_upper_bound; lia).
  replace (k - 719468)%Z with (400 * Z.of_nat (Z.to_nat (k / 400)) - 719468 + k mod 400)%Z by lia. apply walk_ok with 400%nat; [apply era_walk; lia|lia].
Qed.
Lemma era_shift : forall z e, date_of_day (z + 146097 * e) =
  {| d_year := d_year (date_of_day z) + 400 * e; d_month := d_month (date_of_day z); d_day := d_day (date_of_day z) |}.
Proof.
  intros z e. unfold date_of_day. cbn zeta. replace (z + 146097 * e + 719468)%Z with (z + 719468 + e * 146097)%Z by lia.
  rewrite Z.div_add, Z.mod_add by lia. cbn [d_year d_month d_day]. f_equal. lia.
Qed.
Lemma leap_shift : forall y e, leap (y + 400 * e) = leap y.
Proof.
  intros y e. unfold leap. replace (y + 400 * e)%Z with (y + (100 * e) * 4)%Z at 1 by lia. rewrite Z.mod_add by lia.
  replace (y + 400 * e)%Z with (y + (4 * e) * 100)%Z at 1 by lia. rewrite Z.mod_add by lia. replace (y + 400 * e)%Z with (y + e * 400)%Z by lia. now rewrite Z.mod_add by lia.
Qed.
Lemma length_shift : forall y e m, month_length (y + 400 * e) m = month_length y m.
Proof. intros y e m. unfold month_length. now rewrite leap_shift. Qed.
Lemma day_good : forall z, exists e z0, z = (z0 + 146097 * e)%Z /\ good_day z0.
Proof.
  intros z. exists ((z + 719468) / 146097)%Z, ((z + 719468) mod 146097 - 719468)%Z.
  pose proof (Z.div_mod (z + 719468) 146097 ltac:(lia)) as D. pose proof (Z.mod_pos_bound (z + 719468) 146097 ltac:(lia)) as B.
  split; [lia|]. now apply era_day.
Qed.
Lemma next_shift : forall e a b, next_day a b -> next_day (fst (fst a) + 400 * e, snd (fst a), snd a)%Z (fst (fst b) + 400 * e, snd (fst b), snd b)%Z.
Proof.
  intros e a b H. destruct H as [y m d L|y m L|y]; cbn [fst snd].
  - constructor. now rewrite length_shift.
  - rewrite <- (length_shift y e m). now constructor.
  - replace (y + 1 + 400 * e)%Z with (y + 400 * e + 1)%Z by lia. constructor.
Qed.
Lemma date_next : forall z, next_day (triple (date_of_day z)) (triple (date_of_day (z + 1))).
Proof.
  intros z. destruct (day_good z) as (e & z0 & -> & G). replace (z0 + 146097 * e + 1)%Z with (z0 + 1 + 146097 * e)%Z by lia.
  rewrite !era_shift. destruct G as [_ G]. apply next_dayb_ok in G. exact (next_shift e _ _ G).
Qed.
Lemma date_range : forall z, (1 <= d_month (date_of_day z) <= 12)%Z /\ (1 <= d_day (date_of_day z) <= 31)%Z.
Proof.
  intros z. destruct (day_good z) as (e & z0 & -> & G). rewrite era_shift. cbn [d_month d_day]. destruct G as [G _]. unfold in_month in G. rewrite !andb_true_iff, !Z.leb_le in G. lia.
Qed.
Lemma date_calendar : calendar (fun z => triple (date_of_day z)).
Proof. split; [reflexivity|exact date_next]. Qed.

