(** Proofs about the values read from explain lines. *)
From Coq Require Import String List NArith ZArith QArith Bool Lia Arith.
From Verif Require Import Base Dec Regex RegexInv ExplainTree ExplainSpec ExplainLineSpec.
Import ListNotations.
Local Open Scope nat_scope.

Lemma digits_forallb : forall w, digits w <-> forallb is_digit w = true.
Proof. intros. unfold digits. rewrite forallb_forall, Forall_forall. tauto. Qed.

Lemma digits_val_place : forall w acc,
    digits_val acc w = (acc * 10 ^ N.of_nat (length w) + place_value w)%N.
Proof.
  induction w as [|c w IH]; intros acc.
  - simpl. lia.
  - cbn [digits_val place_value length]. rewrite IH. rewrite Nat2N.inj_succ, N.pow_succ_r'. lia.
Qed.
Lemma place_value_app : forall a b,
    place_value (a ++ b) = (place_value a * 10 ^ N.of_nat (length b) + place_value b)%N.
Proof.
  intros a b. pose proof (digits_val_place (a ++ b) 0). rewrite digits_val_app in H.
  rewrite (digits_val_place a), digits_val_place in H. lia.
Qed.

Lemma cut_dot_none : forall a, digits a -> cut_dot a = (a, None).
Proof.
  induction 1 as [|c a Hc Ha IH]; auto. cbn [cut_dot]. rewrite IH.
  destruct (N.eqb_spec c 46); [subst; discriminate|reflexivity].
Qed.
Lemma cut_dot_some : forall a b, digits a -> cut_dot (a ++ 46%N :: b) = (a, Some b).
Proof.
  induction a as [|c a IH]; intros b Ha; [reflexivity|].
  inversion Ha; subst. cbn [app cut_dot]. rewrite IH by auto.
  destruct (N.eqb_spec c 46); [subst; discriminate|reflexivity].
Qed.
Lemma cut_dot_spec : forall s, match cut_dot s with
                               | (a, None) => s = a
                               | (a, Some b) => s = a ++ 46%N :: b
                               end.
Proof.
  induction s as [|c s IH]; [reflexivity|]. cbn [cut_dot].
  destruct (N.eqb_spec c 46) as [->|Hc]; [reflexivity|].
  destruct (cut_dot s) as [a [b|]]; simpl; congruence.
Qed.

Lemma pow10_pos : forall n, (0 < 10 ^ N.of_nat n)%N.
Proof. intros. apply N.neq_0_lt_0. apply N.pow_nonzero. lia. Qed.

Lemma succ_pos_pred : forall n, (0 < n)%N -> Z.pos (N.succ_pos (n - 1)) = Z.of_N n.
Proof.
  intros n H. rewrite <- N2Z.inj_pos, N.succ_pos_spec. f_equal. lia.
Qed.

Lemma decimal_value_eq : forall a b,
    (Qmake (Z.of_N (digits_val 0 (a ++ b))) (N.succ_pos (10 ^ N.of_nat (length b) - 1)) ==
     decimal_value a b)%Q.
Proof.
  intros a b. unfold decimal_value. rewrite digits_val_place, N.mul_0_l, N.add_0_l, place_value_app.
  pose proof (pow10_pos (length b)) as HP. set (s := (10 ^ N.of_nat (length b))%N) in *.
  assert (HS : ~ (inject_Z (Z.of_N s) == 0)%Q).
  { unfold Qeq, inject_Z. simpl. lia. }
  assert (HE : (Qmake (Z.of_N (place_value a * s + place_value b)) (N.succ_pos (s - 1)) ==
                inject_Z (Z.of_N (place_value a * s + place_value b)) / inject_Z (Z.of_N s))%Q).
  { rewrite Qmake_Qdiv. rewrite succ_pos_pred by auto. reflexivity. }
  rewrite HE. rewrite N2Z.inj_add, N2Z.inj_mul, inject_Z_plus, inject_Z_mult. field. exact HS.
Qed.

Lemma fits_iff : forall a b,
    fits (decimal_value a b) <->
    (digits_val 0 (a ++ b) < float_limit * 10 ^ N.of_nat (length b))%N.
Proof.
  intros a b. unfold fits. rewrite <- decimal_value_eq. unfold Qlt, inject_Z.
  cbn [Qnum Qden]. rewrite succ_pos_pred by apply pow10_pos. rewrite Z.mul_1_r.
  rewrite <- N2Z.inj_mul, <- N2Z.inj_lt. reflexivity.
Qed.

Lemma parse_float_parts : forall w a b, digits a -> digits b -> a ++ b <> [] ->
    ((w = a /\ b = []) \/ w = a ++ 46%N :: b) -> fits (decimal_value a b) ->
    exists q, parse_float w = Some q /\ (q == decimal_value a b)%Q.
Proof.
  intros w a b Ha Hb Hne Hw HF. unfold parse_float.
  assert (HC : exists o, cut_dot w = (a, o) /\ match o with Some b => b | None => [] end = b).
  { destruct Hw as [[-> ->]| ->]; [exists None|exists (Some b)]; split; auto using cut_dot_none, cut_dot_some. }
  destruct HC as (o & -> & ->).
  destruct (a ++ b) as [|c r] eqn:E; [congruence|]. rewrite <- E.
  assert (HD : forallb is_digit (a ++ b) = true).
  { rewrite forallb_app. apply andb_true_iff. rewrite <- !digits_forallb. auto. }
  rewrite HD. apply fits_iff in HF. apply N.ltb_lt in HF. rewrite HF.
  eexists. split; [reflexivity|]. apply decimal_value_eq.
Qed.

Lemma numeral_decimal : forall w q, numeral w q -> decimal w q.
Proof.
  intros w q (a & b & Ha & Hb & Hne & Hw & Hq). exists a, b. repeat (split; auto).
  - intros E. apply app_eq_nil in E. tauto.
  - destruct Hw as [Hw|[Hw _]]; auto.
Qed.

Lemma fits_eq : forall p q, (p == q)%Q -> fits p -> fits q.
Proof. intros p q E H. unfold fits in *. now rewrite <- E. Qed.

Theorem parse_float_iff : forall w q, (exists q', parse_float w = Some q' /\ (q' == q)%Q) <-> decimal w q /\ fits q.
Proof.
  intros w q. split.
  - intros (q' & H & E). unfold parse_float in H. pose proof (cut_dot_spec w) as HC.
    destruct (cut_dot w) as [a o].
    set (b := match o with Some b => b | None => [] end) in *.
    destruct (a ++ b) as [|c r] eqn:EL; [discriminate|]. rewrite <- EL in H.
    destruct (forallb is_digit (a ++ b)) eqn:ED; [|discriminate].
    destruct (N.ltb_spec (digits_val 0 (a ++ b)) (float_limit * 10 ^ N.of_nat (length b))) as [HL|HL]; [|discriminate].
    inversion H; subst q'. rewrite forallb_app in ED. apply andb_true_iff in ED. destruct ED as [D1 D2].
    assert (HQ : (q == decimal_value a b)%Q) by (rewrite <- E; apply decimal_value_eq).
    split.
    + exists a, b. repeat (split; auto); try (now apply digits_forallb); try congruence.
      destruct o; subst b; auto.
    + eapply fits_eq; [symmetry; exact HQ|]. now apply fits_iff.
  - intros ((a & b & Ha & Hb & Hne & Hw & Hq) & HF).
    destruct (parse_float_parts w a b Ha Hb Hne Hw) as (q' & H1 & H2).
    { eapply fits_eq; eauto. }
    exists q'. split; auto. now rewrite H2, Hq.
Qed.

Lemma parse_count : forall w z, parse_int64 w = Some z <-> count w z.
Proof.
  intros w z. unfold parse_int64, count. split.
  - destruct w as [|c w]; [discriminate|]. destruct (forallb is_digit (c :: w)) eqn:E; [|discriminate].
    intros H. cbv zeta in H.
    destruct (Z.ltb_spec (Z.of_N (digits_val 0 (c :: w))) (2 ^ 63)) as [HL|HL]; [|discriminate].
    rewrite digits_val_place in *. rewrite N.mul_0_l, N.add_0_l in *. inversion H; subst.
    split; [congruence|]. split; [now apply digits_forallb|]. auto.
  - intros (Hne & Hd & -> & HL). destruct w as [|c w]; [congruence|].
    apply digits_forallb in Hd. rewrite Hd. cbv zeta. rewrite digits_val_place, N.mul_0_l, N.add_0_l.
    apply Z.ltb_lt in HL. now rewrite HL.
Qed.

(** ** Matching runs *)
Lemma mt_grp_lazy : forall R p n w rest i c (k : @kont R) x,
    forallb p w = true -> w <> [] ->
    (forall w1 w2, w = w1 ++ w2 -> w1 <> [] -> w2 <> [] ->
       k (i + length w1) (w2 ++ rest) ((n, w1) :: c) = None) ->
    k (i + length w) rest ((n, w) :: c) = Some x ->
    mt (Grp n (plus false (Chr p))) i (w ++ rest) c k = Some x.
Proof.
  intros R p n w rest i c k x Hw Hne Hf Hk. destruct w as [|y w]; [congruence|].
  rewrite mt_grp. unfold plus. rewrite mt_cat. cbn [app]. rewrite mt_chr_cons.
  simpl in Hw. apply andb_true_iff in Hw. destruct Hw as [Hy Hw]. rewrite Hy, star_chr_lazy.
  assert (HFN : forall v u : gostring, firstn (S i + length v - i) (y :: (v ++ u)) = y :: v).
  { intros v u. replace (S i + length v - i) with (length (y :: v)) by (cbn [length]; lia).
    change (y :: v ++ u) with ((y :: v) ++ u). rewrite firstn_app, Nat.sub_diag, firstn_all. simpl.
    now rewrite app_nil_r. }
  apply lazy_run_first; auto.
  - intros w1 w2 -> Hw2. rewrite <- app_assoc, HFN.
    specialize (Hf (y :: w1) w2 eq_refl ltac:(congruence) Hw2). simpl in Hf.
    now rewrite Nat.add_succ_r in Hf.
  - rewrite HFN. simpl in Hk. now rewrite Nat.add_succ_r in Hk.
Qed.
Lemma mt_grp_greedy : forall R p n w rest i c (k : @kont R) x,
    forallb p w = true -> w <> [] ->
    match rest with [] => True | y :: _ => p y = false end ->
    k (i + length w) rest ((n, w) :: c) = Some x ->
    mt (Grp n (plus true (Chr p))) i (w ++ rest) c k = Some x.
Proof.
  intros R p n w rest i c k x Hw Hne Hr Hk. destruct w as [|y w]; [congruence|].
  rewrite mt_grp. unfold plus. rewrite mt_cat. cbn [app]. rewrite mt_chr_cons.
  simpl in Hw. apply andb_true_iff in Hw. destruct Hw as [Hy Hw]. rewrite Hy, star_chr_greedy.
  apply greedy_run_longest; auto.
  replace (S i + length w - i) with (length (y :: w)) by (cbn [length]; lia).
  change (y :: w ++ rest) with ((y :: w) ++ rest). rewrite firstn_app, Nat.sub_diag, firstn_all. simpl firstn.
  rewrite app_nil_r. simpl in Hk. now rewrite Nat.add_succ_r in Hk.
Qed.
Lemma mt_str_app : forall R p i s c (k : @kont R), mt (str p) i (p ++ s) c k = k (i + length p) s c.
Proof. intros. now rewrite mt_str, prefix_of_app. Qed.

(** ** Searching for what begins with a literal *)
Lemma find_at : forall r (p : gostring) a s m,
    (forall i s' x, match_at r i s' = Some x -> exists u, s' = p ++ u) ->
    (forall a1 a2, a = a1 ++ a2 -> a2 <> [] -> forall u, a2 ++ s <> p ++ u) ->
    match_at r (length a) s = Some m -> find r (a ++ s) = Some m.
Proof.
  intros r p a s m Hp Ha Hm. unfold find. apply find_from_skip; auto.
  intros w1 w2 E Hne. simpl. destruct (match_at r (length w1) (w2 ++ s)) eqn:EM; auto.
  apply Hp in EM. destruct EM as (u & Hu). elim (Ha _ _ E Hne u Hu).
Qed.
Lemma find_absent : forall r (p : gostring) s,
    (forall i s' x, match_at r i s' = Some x -> exists u, s' = p ++ u) ->
    ~ occurs p s -> find r s = None.
Proof.
  intros r p s Hp Hn. unfold find. apply find_from_none. intros w s1 ->. simpl.
  destruct (match_at r (length w) s1) eqn:E; auto. apply Hp in E. destruct E as (u & ->).
  elim Hn. exists w, u. reflexivity.
Qed.
(** An occurrence that begins before the literal stands in what precedes it. *)
Lemma occurs_first : forall (p a s : gostring) x p0,
    p = x :: p0 -> ~ In x p0 -> ~ occurs p a -> (exists q, s = p ++ q) ->
    forall a1 a2, a = a1 ++ a2 -> a2 <> [] -> forall u, a2 ++ s <> p ++ u.
Proof.
  intros p a s x p0 Hp Hx Hno (q & Hs) a1 a2 Ha Hne u E.
  assert (HC : (exists v, a2 = p ++ v) \/ (exists v w, p = a2 ++ v /\ v <> [] /\ s = v ++ w)).
  { clear - E. revert a2 E. generalize u. induction p as [|y p IH]; intros u0 a2 E.
    - left. exists a2. reflexivity.
    - destruct a2 as [|z a2].
      + right. exists (y :: p), u0. simpl in *. split; auto. split; [congruence|auto].
      + simpl in E. inversion E; subst. destruct (IH _ _ H1) as [(v & ->)|(v & w & -> & H2 & ->)].
        * left. exists v. reflexivity.
        * right. exists v, w. split; auto. }
  destruct HC as [(v & ->)|(v & w & Hv & Hvn & Hw)].
  - apply Hno. exists a1, v. now subst a.
  - destruct a2 as [|z a2]; [congruence|]. subst p. simpl in Hv. inversion Hv; subst z p0.
    destruct v as [|y v]; [congruence|]. rewrite Hs in Hw. simpl in Hw. inversion Hw; subst y.
    apply Hx. apply in_app_iff. right. left. reflexivity.
Qed.
