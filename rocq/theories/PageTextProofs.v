(** Proofs about PageText.v *)
From Coq Require Import String List NArith ZArith QArith Qround Qabs Bool Lia Arith Lqa.
From Verif Require Import Base Dec Pi LoadCharts PageText PageTextSpec PageTextCalendar.
From Verif Require TooltipSpec.
Import ListNotations.
Local Open Scope list_scope.

(** ** Digits *)
Lemma read_app : forall a b, read_digits (a ++ b) = fold_left (fun a c => 10 * a + (c - 48))%N b (read_digits a).
Proof. intros a b. unfold read_digits. now rewrite fold_left_app. Qed.
Lemma read_val : forall s a, fold_left (fun a c => 10 * a + (c - 48))%N s a = digits_val a s.
Proof. induction s as [|c s IH]; intros a; cbn [fold_left digits_val]; [reflexivity|apply IH]. Qed.
Lemma padded_length : forall d n, length (padded d n) = d.
Proof. induction d as [|d IH]; intros n; cbn [padded]; [reflexivity|]. rewrite app_length, IH. cbn. lia. Qed.
Lemma padded_digits : forall d n, Forall digit (padded d n).
Proof.
  induction d as [|d IH]; intros n; cbn [padded]; [constructor|]. apply Forall_app. split; [apply IH|]. constructor; [|constructor].
  unfold digit. assert (n mod 10 < 10)%N by (apply N.mod_lt; discriminate). set (k := (n mod 10)%N) in *. clearbody k. lia.
Qed.
Lemma padded_read : forall d n a, fold_left (fun a c => 10 * a + (c - 48))%N (padded d n) a = (10 ^ N.of_nat d * a + n mod 10 ^ N.of_nat d)%N.
Proof.
  induction d as [|d IH]; intros n a.
  - cbn [padded fold_left]. change (10 ^ N.of_nat 0)%N with 1%N. rewrite N.mod_1_r. lia.
  - cbn [padded]. rewrite fold_left_app. cbn [fold_left]. rewrite IH. replace (N.of_nat (S d)) with (N.succ (N.of_nat d)) by lia. rewrite N.pow_succ_r'.
    assert (10 ^ N.of_nat d <> 0)%N as P by (apply N.pow_nonzero; discriminate). rewrite (N.mod_mul_r n 10) by (try exact P; discriminate). set (t := (10 ^ N.of_nat d)%N) in *.
    set (k := (n mod 10)%N). set (r := (n / 10 mod t)%N). clearbody k r t. lia.
Qed.
Lemma dec_digits : forall n, Forall digit (dec_of_N n).
Proof.
  intros n. apply Forall_forall. intros c H. pose proof (dec_of_N_digits n) as D. rewrite forallb_forall in D. specialize (D c H).
  unfold is_digit in D. unfold digit. apply andb_prop in D. destruct D as [D1 D2]. apply N.leb_le in D1, D2. lia.
Qed.
Lemma fuel_head : forall f n, (n < 2 ^ N.of_nat f)%N -> (0 < n)%N -> exists c r, dec_fuel f n = c :: r /\ c <> 48%N.
Proof.
  induction f as [|f IH]; intros n L P.
  - change (2 ^ N.of_nat 0)%N with 1%N in L. lia.
  - cbn [dec_fuel]. destruct (N.ltb n 10) eqn:E.
    + exists (48 + n)%N, []. split; [reflexivity|lia].
    + apply N.ltb_ge in E. destruct (IH (n / 10)%N) as (c & r & K1 & K2).
      * now apply div10_lt.
      * apply N.div_str_pos. lia.
      * rewrite K1. exists c, (r ++ [(48 + n mod 10)%N]). split; [reflexivity|exact K2].
Qed.
Lemma dec_head : forall n, dec_of_N n = [48%N] \/ exists c r, dec_of_N n = c :: r /\ c <> 48%N.
Proof.
  intros n. destruct (N.eq_dec n 0) as [-> | E]; [left; reflexivity|]. right. unfold dec_of_N. apply fuel_head; [apply log2_fuel|lia].
Qed.
Lemma to_fixed_decimal : forall d x, exists n, decimal d (negb (Qle_bool 0 x)) n (to_fixed d x) /\
  n = Z.to_N (Qfloor (Qabs x * inject_Z (10 ^ Z.of_nat d) + (1 # 2))).
Proof.
  intros d x. unfold to_fixed. set (n := Z.to_N (Qfloor (Qabs x * inject_Z (10 ^ Z.of_nat d) + (1 # 2)))). exists n. split; [|reflexivity].
  exists (dec_of_N (n / 10 ^ N.of_nat d)), (padded d n). split; [|split; [|split; [|split]]].
  - destruct (Qle_bool 0 x); cbn [negb]; now destruct d.
  - apply Forall_app. split; [apply dec_digits|apply padded_digits].
  - apply padded_length.
  - apply dec_head.
  - rewrite read_app, padded_read. unfold read_digits. rewrite read_val, dec_of_N_val. rewrite (N.div_mod n (10 ^ N.of_nat d)) at 3 by (apply N.pow_nonzero; discriminate). reflexivity.
Qed.
Lemma half_up : forall y, (0 <= y)%Q -> let n := Z.to_N (Qfloor (y + (1 # 2))) in
  (inject_Z (Z.of_N n) - (1 # 2) <= y)%Q /\ (y < inject_Z (Z.of_N n) + (1 # 2))%Q.
Proof.
  intros y H n. pose proof (Qfloor_le (y + (1 # 2))) as L. pose proof (Qlt_floor (y + (1 # 2))) as U. rewrite inject_Z_plus in U. change (inject_Z 1) with 1%Q in U.
  assert (0 <= Qfloor (y + (1 # 2)))%Z as P.
  { change 0%Z with (Qfloor 0). apply Qfloor_resp_le. lra. }
  unfold n. rewrite Z2N.id by exact P. split; lra.
Qed.

(** Later days have later dates *)
Definition serial (t : Z * Z * Z) : Z := let '(y, m, d) := t in (y * 512 + m * 32 + d)%Z.
Lemma serial_next : forall a b, next_day a b -> (1 <= snd (fst a) <= 12)%Z -> (1 <= snd a <= 31)%Z -> (1 <= snd b <= 31)%Z -> (serial a < serial b)%Z.
Proof. intros a b H M D D'. destruct H as [y m d L|y m L|y]; cbn [fst snd serial] in *; lia. Qed.
Lemma serial_step : forall z, (serial (triple (date_of_day z)) < serial (triple (date_of_day (z + 1))))%Z.
Proof. intros z. apply serial_next; [apply date_next|apply (date_range z)|apply (date_range z)|apply (date_range (z + 1))]. Qed.
Lemma serial_lt : forall k z, (0 < k)%Z -> (serial (triple (date_of_day z)) < serial (triple (date_of_day (z + k))))%Z.
Proof.
  intros k z P. replace k with (Z.of_nat (Z.to_nat k)) by lia. assert (0 < Z.to_nat k)%nat as Q by lia. generalize dependent (Z.to_nat k). clear. induction n as [|n IH]; intros H; [lia|].
  destruct (Nat.eq_dec n 0) as [-> | N]; [apply serial_step|]. specialize (IH ltac:(lia)). pose proof (serial_step (z + Z.of_nat n)) as S1.
  replace (z + Z.of_nat (S n))%Z with (z + Z.of_nat n + 1)%Z by lia. eapply Z.lt_trans; [exact IH|exact S1].
Qed.
Lemma date_inj : forall a b, triple (date_of_day a) = triple (date_of_day b) -> a = b.
Proof.
  intros a b E. destruct (Z.lt_trichotomy a b) as [L|[L|L]]; [|exact L|]; exfalso.
  - pose proof (serial_lt (b - a) a ltac:(lia)) as S. rewrite E in S. replace (a + (b - a))%Z with b in S by lia. exact (Z.lt_irrefl _ S).
  - pose proof (serial_lt (a - b) b ltac:(lia)) as S. rewrite <- E in S. replace (b + (a - b))%Z with a in S by lia. exact (Z.lt_irrefl _ S).
Qed.
Lemma serial_le : forall a b, (a <= b)%Z -> (serial (triple (date_of_day a)) <= serial (triple (date_of_day b)))%Z.
Proof.
  intros a b L. destruct (Z.eq_dec a b) as [-> | N]; [apply Z.le_refl|]. apply Z.lt_le_incl. replace b with (a + (b - a))%Z by lia. apply serial_lt. lia.
Qed.
Lemma year_range : forall z, (-719528 <= z < 2932897)%Z -> (0 <= d_year (date_of_day z) < 10000)%Z.
Proof.
  intros z [L U]. apply serial_le in L. assert (z <= 2932896)%Z as U' by lia. clear U. apply serial_le in U'.
  change (serial (triple (date_of_day (-719528)))) with 33%Z in L. change (serial (triple (date_of_day 2932896))) with 5119903%Z in U'.
  pose proof (date_range z) as [R1 R2]. unfold triple, serial in L, U'. set (y := d_year (date_of_day z)) in *. set (m := d_month (date_of_day z)) in *. set (d := d_day (date_of_day z)) in *.
  clearbody y m d. lia.
Qed.

(** ** The text of a time *)
Definition week_string (n : Z) : string := nth (Z.to_nat (week_day n)) ["Sun"; "Mon"; "Tue"; "Wed"; "Thu"; "Fri"; "Sat"]%string EmptyString.
Lemma week_ok : weekdays week_string.
Proof.
  split; [reflexivity|]. split; [reflexivity|]. split; [reflexivity|]. split; [reflexivity|]. split; [reflexivity|]. split; [reflexivity|]. split; [reflexivity|].
  intros n. unfold week_string, week_day. replace (n + 7 + 4)%Z with (n + 4 + 1 * 7)%Z by lia. now rewrite Z.mod_add by lia.
Qed.
Lemma week_text : forall n, nth (Z.to_nat (week_day n)) week_names [] = of_string (week_string n).
Proof. intros n. unfold week_names, week_string. exact (map_nth of_string _ EmptyString _). Qed.
Lemma week_length : forall n, length (of_string (week_string n)) = 3%nat.
Proof.
  intros n. unfold week_string, week_day. pose proof (Z.mod_pos_bound (n + 4) 7 ltac:(lia)) as B. set (k := ((n + 4) mod 7)%Z) in *. clearbody k.
  assert (k = 0 \/ k = 1 \/ k = 2 \/ k = 3 \/ k = 4 \/ k = 5 \/ k = 6)%Z as C by lia. decompose [or] C; subst; reflexivity.
Qed.
Lemma month_text : forall m, (1 <= m <= 12)%Z -> nth (Z.to_nat (m - 1)) month_names [] = of_string (month_name m).
Proof.
  intros m H. assert (m = 1 \/ m = 2 \/ m = 3 \/ m = 4 \/ m = 5 \/ m = 6 \/ m = 7 \/ m = 8 \/ m = 9 \/ m = 10 \/ m = 11 \/ m = 12)%Z as C by lia. decompose [or] C; subst; reflexivity.
Qed.
Lemma month_length3 : forall m, length (of_string (month_name m)) = 3%nat.
Proof. intros m. unfold month_name. repeat match goal with |- context [match ?x with _ => _ end] => is_var x; destruct x; try reflexivity end. Qed.
Lemma month_inj : forall m m', (1 <= m <= 12)%Z -> (1 <= m' <= 12)%Z -> of_string (month_name m) = of_string (month_name m') -> m = m'.
Proof.
  intros m m' H H'. assert (m = 1 \/ m = 2 \/ m = 3 \/ m = 4 \/ m = 5 \/ m = 6 \/ m = 7 \/ m = 8 \/ m = 9 \/ m = 10 \/ m = 11 \/ m = 12)%Z as C by lia.
  assert (m' = 1 \/ m' = 2 \/ m' = 3 \/ m' = 4 \/ m' = 5 \/ m' = 6 \/ m' = 7 \/ m' = 8 \/ m' = 9 \/ m' = 10 \/ m' = 11 \/ m' = 12)%Z as C' by lia.
  decompose [or] C; decompose [or] C'; subst; first [reflexivity | intros E; vm_compute in E; discriminate E].
Qed.
Lemma padded_in : forall k n, (0 <= n < 10 ^ Z.of_nat k)%Z -> in_digits k n (padded k (Z.to_N n)).
Proof.
  intros k n H. split; [apply padded_length|]. split; [apply padded_digits|]. unfold read_digits. rewrite padded_read. rewrite N.mul_0_r, N.add_0_l.
  rewrite N.mod_small; [lia|]. apply N2Z.inj_lt. rewrite N2Z.inj_pow, Z2N.id, nat_N_Z by lia. apply H.
Qed.
Lemma utc_shown : forall ms, (-62167219200000 <= ms < 253402300800000)%Z ->
  utc_text (fun n => triple (date_of_day n)) week_string (ms / 1000) (utc_string ms).
Proof.
  intros ms H. set (n := (ms / 86400000)%Z). set (s := (ms / 1000 mod 86400)%Z).
  assert (ms / 1000 = n * 86400 + s)%Z as E.
  { unfold n, s. replace 86400000%Z with (1000 * 86400)%Z by lia. rewrite <- Z.div_div by lia. pose proof (Z.div_mod (ms / 1000) 86400 ltac:(lia)). lia. }
  assert (0 <= s < 86400)%Z as B by (apply Z.mod_pos_bound; lia).
  assert (-719528 <= n < 2932897)%Z as NB.
  { unfold n. split; [apply Z.div_le_lower_bound; lia|apply Z.div_lt_upper_bound; lia]. }
  pose proof (year_range n NB) as Y. pose proof (date_range n) as [M D].
  pose proof (Z.div_mod s 3600 ltac:(lia)) as D1. pose proof (Z.mod_pos_bound s 3600 ltac:(lia)) as B1.
  pose proof (Z.div_mod s 60 ltac:(lia)) as D2. pose proof (Z.mod_pos_bound s 60 ltac:(lia)) as B2.
  pose proof (Z.div_mod (s / 60) 60 ltac:(lia)) as D3. pose proof (Z.mod_pos_bound (s / 60) 60 ltac:(lia)) as B3.
  assert (s / 60 / 60 = s / 3600)%Z as D4 by (rewrite Z.div_div by lia; reflexivity).
  assert (0 <= s / 3600 < 24)%Z as B4 by (split; [apply Z.div_pos; lia|apply Z.div_lt_upper_bound; lia]).
  exists n, (s / 3600)%Z, (s / 60 mod 60)%Z, (s mod 60)%Z, (d_year (date_of_day n)), (d_month (date_of_day n)), (d_day (date_of_day n)),
    (year_text (d_year (date_of_day n))), (two_digits (d_day (date_of_day n))), (two_digits (s / 3600)), (two_digits (s / 60 mod 60)), (two_digits (s mod 60)).
  split; [lia|]. split; [exact B4|]. split; [exact B3|]. split; [exact B2|]. split; [reflexivity|].
  split.
  { unfold year_text. destruct (Z.ltb_spec (d_year (date_of_day n)) 0) as [C|_]; [lia|]. rewrite Z.abs_eq by lia. destruct (Z.ltb_spec (d_year (date_of_day n)) 10000) as [_|C]; [|lia].
    cbn [app]. apply padded_in. change (10 ^ Z.of_nat 4)%Z with 10000%Z. lia. }
  split; [apply padded_in; change (10 ^ Z.of_nat 2)%Z with 100%Z; lia|]. split; [apply padded_in; change (10 ^ Z.of_nat 2)%Z with 100%Z; lia|].
  split; [apply padded_in; change (10 ^ Z.of_nat 2)%Z with 100%Z; lia|]. split; [apply padded_in; change (10 ^ Z.of_nat 2)%Z with 100%Z; lia|].
  unfold utc_string. cbn zeta. fold n s. rewrite week_text, month_text by exact M. reflexivity.
Qed.
Lemma app_same : forall A (a b x y : list A), length a = length b -> a ++ x = b ++ y -> a = b /\ x = y.
Proof.
  induction a as [|h a IH]; intros [|h' b] x y L E; cbn [length app] in *; try discriminate; [split; [reflexivity|exact E]|].
  injection E as -> E. injection L as L. destruct (IH b x y L E) as [-> ->]. now split.
Qed.
Lemma digits_same : forall k n n' s, in_digits k n s -> in_digits k n' s -> n = n'.
Proof. intros k n n' s (_ & _ & A) (_ & _ & B). congruence. Qed.
Lemma utc_text_inj : forall sec sec' s, utc_text (fun n => triple (date_of_day n)) week_string sec s -> utc_text (fun n => triple (date_of_day n)) week_string sec' s -> sec = sec'.
Proof.
  intros sec sec' s (n & h & mi & se & y & m & d & yt & dt & ht & mit & st & E & H1 & H2 & H3 & DT & A1 & A2 & A3 & A4 & A5 & T)
    (n' & h' & mi' & se' & y' & m' & d' & yt' & dt' & ht' & mit' & st' & E' & H1' & H2' & H3' & DT' & A1' & A2' & A3' & A4' & A5' & T').
  rewrite T in T'. apply app_same in T'; [|now rewrite !week_length]. destruct T' as [_ T']. apply app_inv_head in T'.
  apply app_same in T'; [|destruct A2 as [-> _], A2' as [-> _]; reflexivity]. destruct T' as [E1 T']. apply app_inv_head in T'.
  apply app_same in T'; [|now rewrite !month_length3]. destruct T' as [E2 T']. apply app_inv_head in T'.
  apply app_same in T'; [|destruct A1 as [-> _], A1' as [-> _]; reflexivity]. destruct T' as [E3 T']. apply app_inv_head in T'.
  apply app_same in T'; [|destruct A3 as [-> _], A3' as [-> _]; reflexivity]. destruct T' as [E4 T']. apply app_inv_head in T'.
  apply app_same in T'; [|destruct A4 as [-> _], A4' as [-> _]; reflexivity]. destruct T' as [E5 T']. apply app_inv_head in T'.
  apply app_same in T'; [|destruct A5 as [-> _], A5' as [-> _]; reflexivity]. destruct T' as [E6 _]. subst.
  pose proof (date_range n) as [M _]. pose proof (date_range n') as [M' _]. unfold triple in DT, DT'. assert (d_month (date_of_day n) = m) as Y2 by congruence. assert (d_month (date_of_day n') = m') as Z2 by congruence. rewrite Y2 in M. rewrite Z2 in M'.
  apply month_inj in E2; [|exact M|exact M'].
  pose proof (digits_same _ _ _ _ A1 A1') as F1. pose proof (digits_same _ _ _ _ A2 A2') as F2. pose proof (digits_same _ _ _ _ A3 A3') as F3.
  pose proof (digits_same _ _ _ _ A4 A4') as F4. pose proof (digits_same _ _ _ _ A5 A5') as F5.
  assert (n = n') as -> by (apply date_inj; unfold triple; congruence). congruence.
Qed.

(** ** Harmless characters *)
Definition quiet (c : rune) : Prop := c <> 60%N /\ c <> 38%N.
Lemma digit_quiet : forall s, Forall digit s -> Forall quiet s.
Proof. intros s H. eapply Forall_impl; [|exact H]. intros c D. unfold digit in D. split; lia. Qed.
Lemma lit_quiet : forall s, forallb (fun c => negb (N.eqb c 60) && negb (N.eqb c 38))%bool s = true -> Forall quiet s.
Proof.
  intros s H. apply Forall_forall. intros c I. rewrite forallb_forall in H. specialize (H c I). apply andb_prop in H. destruct H as [H1 H2].
  apply negb_true_iff in H1, H2. apply N.eqb_neq in H1, H2. now split.
Qed.
Lemma fixed_quiet : forall d x, Forall quiet (to_fixed d x).
Proof.
  intros d x. unfold to_fixed. apply Forall_app. split; [destruct (Qle_bool 0 x); apply lit_quiet; reflexivity|]. apply Forall_app. split; [apply digit_quiet, dec_digits|].
  destruct d as [|d]; [constructor|]. apply Forall_app. split; [apply lit_quiet; reflexivity|]. apply digit_quiet, padded_digits.
Qed.
Lemma two_quiet : forall z, Forall quiet (two_digits z).
Proof. intros z. apply digit_quiet, padded_digits. Qed.
Lemma week_quiet : forall k, Forall quiet (of_string (nth k ["Sun"; "Mon"; "Tue"; "Wed"; "Thu"; "Fri"; "Sat"]%string EmptyString)).
Proof. intros k. apply lit_quiet. do 7 (destruct k as [|k]; [reflexivity|]). destruct k; reflexivity. Qed.
Lemma month_quiet : forall k, Forall quiet (nth k month_names []).
Proof. intros k. apply lit_quiet. do 12 (destruct k as [|k]; [reflexivity|]). destruct k; reflexivity. Qed.
Lemma year_quiet : forall y, Forall quiet (year_text y).
Proof.
  intros y. apply Forall_app. split; [destruct (Z.ltb y 0); apply lit_quiet; reflexivity|].
  destruct (Z.ltb (Z.abs y) 10000); apply digit_quiet; [apply padded_digits|apply dec_digits].
Qed.
Lemma lit_app_quiet : forall s t, forallb (fun c => negb (N.eqb c 60) && negb (N.eqb c 38))%bool s = true -> Forall quiet t -> Forall quiet (s ++ t).
Proof. intros s t H T. apply Forall_app. split; [now apply lit_quiet|exact T]. Qed.
Lemma utc_quiet : forall ms, Forall quiet (utc_string ms).
Proof.
  intros ms. unfold utc_string. cbn zeta. rewrite week_text. unfold week_string.
  apply Forall_app. split; [apply week_quiet|]. apply lit_app_quiet; [reflexivity|].
  apply Forall_app. split; [apply two_quiet|]. apply lit_app_quiet; [reflexivity|].
  apply Forall_app. split; [apply month_quiet|]. apply lit_app_quiet; [reflexivity|].
  apply Forall_app. split; [apply year_quiet|]. apply lit_app_quiet; [reflexivity|].
  apply Forall_app. split; [apply two_quiet|]. apply lit_app_quiet; [reflexivity|].
  apply Forall_app. split; [apply two_quiet|]. apply lit_app_quiet; [reflexivity|].
  apply Forall_app. split; [apply two_quiet|]. apply lit_quiet. reflexivity.
Qed.
Lemma quiet_plain : forall s, Forall quiet s -> TooltipSpec.plain s = true.
Proof.
  intros s H. induction H as [|c s [H1 H2] H IH]; [reflexivity|]. cbn [TooltipSpec.plain]. rewrite IH. apply N.eqb_neq in H1, H2. rewrite H1, H2. reflexivity.
Qed.
