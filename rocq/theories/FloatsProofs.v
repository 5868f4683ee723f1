(** Rounding to binary64: existence, exactness, the relative error. *)
From Coq Require Import String List NArith ZArith QArith Qpower Qround Qabs Bool Lia Arith Lqa.
From Verif Require Import Base Floats FloatsSpec.
Import ListNotations.
Local Open Scope Q_scope.

Notation two e := (Qpower (2 # 1) e).
Lemma two_pos e : 0 < two e.
Proof. apply Qpower_0_lt. reflexivity. Qed.
Lemma two_plus a b : two (a + b) == two a * two b.
Proof. apply Qpower_plus. discriminate. Qed.
Lemma two_le a b : (a <= b)%Z -> two a <= two b.
Proof. intros H. apply Qpower_le_compat_l; [exact H|]. discriminate. Qed.
Lemma two_lt a b : (a < b)%Z -> two a < two b.
Proof. intros H. apply Qpower_lt_compat_l; [exact H|]. reflexivity. Qed.
Lemma two_lt_inv a b : two a < two b -> (a < b)%Z.
Proof. intros H. apply Qpower_lt_compat_l_inv in H; [exact H|reflexivity]. Qed.
Lemma two_Z e : (0 <= e)%Z -> two e == inject_Z (2 ^ e).
Proof.
  intros H. destruct e as [|p|p]; [reflexivity| |lia]. change (two (Zpos p)) with (Qpower_positive (2 # 1) p).
  induction p as [|p IH] using Pos.peano_ind; [reflexivity|]. rewrite Pos2Z.inj_succ.
  change (Qpower_positive (2 # 1) (Pos.succ p)) with (two (Z.pos (Pos.succ p))). rewrite Pos2Z.inj_succ. unfold Z.succ. rewrite two_plus.
  change (two (Z.pos p)) with (Qpower_positive (2 # 1) p). rewrite IH by lia. rewrite Z.pow_add_r by lia. rewrite inject_Z_mult. reflexivity.
Qed.
Lemma two_opp e : two e * two (- e) == 1.
Proof. rewrite <- two_plus. replace (e + - e)%Z with 0%Z by lia. reflexivity. Qed.

Lemma inject_le a b : (a <= b)%Z -> inject_Z a <= inject_Z b.
Proof. intros H. rewrite <- Zle_Qle. exact H. Qed.
Lemma inject_lt a b : (a < b)%Z -> inject_Z a < inject_Z b.
Proof. intros H. rewrite <- Zlt_Qlt. exact H. Qed.
Lemma inject_lt_inv a b : inject_Z a < inject_Z b -> (a < b)%Z.
Proof. intros H. rewrite <- Zlt_Qlt in H. exact H. Qed.
Lemma inject_le_inv a b : inject_Z a <= inject_Z b -> (a <= b)%Z.
Proof. intros H. rewrite <- Zle_Qle in H. exact H. Qed.

(** ** The binade of a positive number *)
Lemma binade_spec x : 0 < x -> two (binade x) <= x /\ x < two (binade x + 1).
Proof.
  intros P. destruct x as [n d]. unfold Qlt in P. cbn [Qnum Qden] in P. rewrite Z.mul_0_l, Z.mul_1_r in P. unfold binade. cbn [Qnum Qden].
  destruct (Z.log2_spec n P) as [N1 N2]. destruct (Z.log2_spec (Zpos d) ltac:(lia)) as [D1 D2]. pose proof (Z.log2_nonneg n) as LN. pose proof (Z.log2_nonneg (Zpos d)) as LD.
  set (a := Z.log2 n) in *. set (b := Z.log2 (Zpos d)) in *.
  assert (n # d == inject_Z n / inject_Z (Zpos d)) as E by (rewrite <- Qmake_Qdiv; reflexivity).
  assert (0 < inject_Z (Zpos d)) as DP by (apply (inject_lt 0); lia).
  assert (x_mul : forall y, y * inject_Z (Zpos d) <= inject_Z n -> y <= n # d).
  { intros y H. rewrite E. apply Qle_shift_div_l; assumption. }
  assert (x_lt : forall y, inject_Z n < y * inject_Z (Zpos d) -> n # d < y).
  { intros y H. rewrite E. apply Qlt_shift_div_r; assumption. }
  assert (n # d < two (a - b + 1)) as UP.
  { apply x_lt. apply Qlt_le_trans with (inject_Z (2 ^ Z.succ a)); [now apply inject_lt|]. rewrite <- two_Z by lia. unfold Z.succ.
    replace (a + 1)%Z with (a - b + 1 + b)%Z by lia. rewrite two_plus. apply Qmult_le_l; [apply two_pos|]. rewrite two_Z by lia. now apply inject_le. }
  assert (two (a - b - 1) <= n # d) as LOW.
  { apply x_mul. apply Qle_trans with (inject_Z (2 ^ a)); [|now apply inject_le]. rewrite <- two_Z by lia.
    replace a with (a - b - 1 + (b + 1))%Z at 2 by lia. rewrite two_plus. apply Qmult_le_l; [apply two_pos|]. rewrite two_Z by lia. apply inject_le. unfold Z.succ in D2. lia. }
  destruct (Qle_bool (two (a - b)) (n # d)) eqn:B.
  - apply Qle_bool_iff in B. split; assumption.
  - split; [exact LOW|]. replace (a - b - 1 + 1)%Z with (a - b)%Z by lia. apply Qnot_le_lt. intros H. apply Qle_bool_iff in H. congruence.
Qed.

(** ** Numbers of binary64 *)
Lemma float_of m e : (Z.abs m < 2 ^ 53)%Z -> (-1074 <= e <= 971)%Z -> is_float (inject_Z m * two e).
Proof. intros H K. exists m, e. split; [exact H|]. split; [exact K|reflexivity]. Qed.
Lemma float_comp f g : f == g -> is_float f -> is_float g.
Proof. intros E (m & e & H & K & F). exists m, e. split; [exact H|]. split; [exact K|]. now rewrite <- E. Qed.
Lemma float_opp f : is_float f -> is_float (- f).
Proof. intros (m & e & H & K & F). exists (- m)%Z, e. split; [now rewrite Z.abs_opp|]. split; [exact K|]. rewrite F, inject_Z_opp. ring. Qed.
(** 2^53 units are a number too *)
Lemma float_top m e : (0 <= m <= 2 ^ 53)%Z -> (-1074 <= e <= 970)%Z -> is_float (inject_Z m * two e).
Proof.
  intros H K. destruct (Z.eq_dec m (2 ^ 53)) as [-> | N]; [|apply float_of; lia].
  apply float_comp with (inject_Z (2 ^ 52) * two (e + 1)); [|apply float_of; lia]. rewrite two_plus. change (two 1) with (inject_Z 2).
  rewrite (Qmult_comm (two e)), Qmult_assoc, <- inject_Z_mult. reflexivity.
Qed.
Lemma nearest_exact x f : is_float x -> nearest x f -> f == x.
Proof.
  intros X [_ H]. specialize (H x X). setoid_replace (x - x) with 0 in H by ring. change (Qabs 0) with 0 in H.
  apply Qabs_Qle_condition in H. lra.
Qed.
Lemma nearest_opp x f : nearest x f -> nearest (- x) (- f).
Proof.
  intros [H K]. split; [now apply float_opp|]. intros g G. specialize (K (- g) (float_opp _ G)).
  setoid_replace (- x - - f) with (- (x - f)) by ring. setoid_replace (- x - g) with (- (x - - g)) by ring. now rewrite !Qabs_opp.
Qed.
Lemma nearest_comp x y f g : x == y -> f == g -> nearest x f -> nearest y g.
Proof.
  intros E F [H K]. split; [now apply float_comp with f|]. intros h G. rewrite <- E, <- F. now apply K.
Qed.

(** ** The error *)
Lemma floor_bounds x : inject_Z (Qfloor x) <= x /\ x < inject_Z (Qfloor x) + 1.
Proof. split; [apply Qfloor_le|]. pose proof (Qlt_floor x) as H. rewrite inject_Z_plus in H. exact H. Qed.
Lemma error_pos x f : two (-1022) <= x -> x <= two 1023 -> nearest x f -> Qabs (f - x) <= eps * x.
Proof.
  intros L U [_ H]. destruct (Qlt_le_dec x (two 1023)) as [U'|U'].
  2:{ assert (is_float x) as X. { apply float_comp with (inject_Z 1 * two 971 * two 52); [|].
        - rewrite <- Qmult_assoc, <- two_plus. change (971 + 52)%Z with 1023%Z. setoid_replace x with (two 1023) by (apply Qle_antisym; assumption). ring.
        - apply float_comp with (inject_Z (2 ^ 52) * two 971); [|apply float_of; lia]. rewrite (two_Z 52) by lia. ring. }
      specialize (H x X). setoid_replace (x - x) with 0 in H by ring. change (Qabs 0) with 0 in H. apply Qabs_Qle_condition in H.
      assert (0 <= eps * x). { apply Qmult_le_0_compat; [apply Qlt_le_weak, two_pos|]. apply Qle_trans with (two (-1022)); [apply Qlt_le_weak, two_pos|exact L]. }
      apply Qabs_Qle_condition. lra. }
  assert (0 < x) as P by (apply Qlt_le_trans with (two (-1022)); [apply two_pos|exact L]).
  destruct (binade_spec x P) as [B1 B2]. set (k := binade x) in *.
  assert (-1022 <= k)%Z as K1.
  { assert (-1022 < k + 1)%Z; [|lia]. apply two_lt_inv. now apply Qle_lt_trans with x. }
  assert (k < 1023)%Z as K2 by (apply two_lt_inv; now apply Qle_lt_trans with x).
  set (s := two (k - 52)). assert (0 < s) as SP by apply two_pos.
  destruct (floor_bounds (x / s)) as [F1 F2]. set (m := Qfloor (x / s)) in *.
  assert (x / s * s == x) as XS by (field; lra).
  assert (inject_Z m * s <= x) as G1 by (rewrite <- XS; apply Qmult_le_compat_r; lra).
  assert (x < (inject_Z m + 1) * s) as G2 by (rewrite <- XS at 1; apply Qmult_lt_r; assumption).
  assert (two k == inject_Z (2 ^ 52) * s) as TK.
  { unfold s. rewrite <- (two_Z 52) by lia. rewrite <- two_plus. replace (52 + (k - 52))%Z with k by lia. reflexivity. }
  assert (two (k + 1) == inject_Z (2 ^ 53) * s) as TK1.
  { unfold s. rewrite <- (two_Z 53) by lia. rewrite <- two_plus. replace (53 + (k - 52))%Z with (k + 1)%Z by lia. reflexivity. }
  assert (2 ^ 52 <= m)%Z as M1.
  { assert (2 ^ 52 < m + 1)%Z; [|lia]. apply inject_lt_inv. rewrite inject_Z_plus. apply Qmult_lt_r with s; [exact SP|]. rewrite <- TK. now apply Qle_lt_trans with x. }
  assert (m < 2 ^ 53)%Z as M2.
  { apply inject_lt_inv. apply Qmult_lt_r with s; [exact SP|]. rewrite <- TK1. now apply Qle_lt_trans with x. }
  assert (is_float (inject_Z m * s)) as A1 by (apply float_top; lia).
  assert (is_float (inject_Z (m + 1) * s)) as A2 by (apply float_top; lia).
  pose proof (H _ A1) as H1. pose proof (H _ A2) as H2. rewrite inject_Z_plus in H2. change (inject_Z 1) with 1 in H2.
  assert (Qabs (x - f) <= s * (1 # 2)) as HS.
  { destruct (Qlt_le_dec (x - inject_Z m * s) (s * (1 # 2))) as [C|C].
    - apply Qle_trans with (1 := H1). rewrite Qabs_pos by lra. lra.
    - apply Qle_trans with (1 := H2). rewrite Qabs_neg by lra. lra. }
  assert (s * (1 # 2) <= eps * x) as SE.
  { apply Qle_trans with (eps * two k).
    - unfold eps, s. rewrite <- two_plus. change (1 # 2) with (two (-1)). rewrite <- two_plus. replace (k - 52 + -1)%Z with (-53 + k)%Z by lia. apply Qle_refl.
    - apply Qmult_le_l; [apply two_pos|exact B1]. }
  apply Qabs_Qle_condition in HS. apply Qabs_Qle_condition. lra.
Qed.
(** whole multiples of the least number are numbers if they are small *)
Definition fine (x : Q) : Prop := exists m, x == inject_Z m * two (-1074).
Lemma fine_float x : fine x -> Qabs x < two (-1021) -> is_float x.
Proof.
  intros (m & E) H. exists m, (-1074)%Z. split; [|split; [lia|exact E]]. rewrite E, Qabs_Qmult in H.
  rewrite (Qabs_pos (two (-1074))) in H by (apply Qlt_le_weak, two_pos). change (Qabs (inject_Z m)) with (inject_Z (Z.abs m)) in H.
  apply inject_lt_inv. apply Qmult_lt_r with (two (-1074)); [apply two_pos|]. rewrite <- (two_Z 53) by lia. rewrite <- two_plus. exact H.
Qed.
Lemma float_fine f : is_float f -> fine f.
Proof.
  intros (m & e & H & K & E). exists (m * 2 ^ (e + 1074))%Z. rewrite E, inject_Z_mult, <- (two_Z (e + 1074)) by lia. rewrite <- Qmult_assoc, <- two_plus.
  replace (e + 1074 + -1074)%Z with e by lia. reflexivity.
Qed.
Lemma fine_plus x y : fine x -> fine y -> fine (x + y).
Proof. intros (m & E) (n & F). exists (m + n)%Z. rewrite E, F, inject_Z_plus. ring. Qed.
Lemma fine_mult x n : fine x -> fine (x * inject_Z n).
Proof. intros (m & E). exists (m * n)%Z. rewrite E, inject_Z_mult. ring. Qed.
Lemma fine_opp x : fine x -> fine (- x).
Proof. intros (m & E). exists (- m)%Z. rewrite E, inject_Z_opp. ring. Qed.
Lemma fine_comp x y : x == y -> fine x -> fine y.
Proof. intros E (m & F). exists m. now rewrite <- E. Qed.
Lemma fine_Z n : fine (inject_Z n).
Proof. exists (n * 2 ^ 1074)%Z. rewrite inject_Z_mult, <- (two_Z 1074) by lia. rewrite <- Qmult_assoc. rewrite (two_opp 1074). ring. Qed.

Definition normal (x : Q) : Prop := two (-1022) <= Qabs x \/ fine x.
Lemma error x f : normal x -> moderate x -> nearest x f -> Qabs (f - x) <= eps * Qabs x.
Proof.
  intros N M H. assert (0 < eps) as EP by apply two_pos.
  assert (is_float x -> Qabs (f - x) <= eps * Qabs x) as EX.
  { intros F. rewrite (nearest_exact x f F H). setoid_replace (x - x) with 0 by ring. change (Qabs 0) with 0. apply Qmult_le_0_compat; [lra|apply Qabs_nonneg]. }
  assert (two (-1022) <= Qabs x \/ is_float x) as [L|F].
  { destruct N as [N|N]; [now left|]. destruct (Qlt_le_dec (Qabs x) (two (-1022))) as [C|C]; [|now left]. right. apply fine_float; [exact N|]. apply Qlt_trans with (1 := C). now apply two_lt. }
  2:{ now apply EX. }
  unfold moderate in M. destruct (Qlt_le_dec x 0) as [C|C].
  - assert (Qabs x == - x) as AX by (apply Qabs_neg; lra). rewrite AX in L, M. rewrite AX. pose proof (error_pos (- x) (- f) L M (nearest_opp _ _ H)) as E.
    setoid_replace (- f - - x) with (- (f - x)) in E by ring. now rewrite Qabs_opp in E.
  - assert (Qabs x == x) as AX by (apply Qabs_pos; lra). rewrite AX in L, M. rewrite AX. now apply error_pos.
Qed.

(** ** The rounding of [fl] *)
Lemma round_even_near s z : Qabs (s - inject_Z (round_even s)) <= Qabs (s - inject_Z z).
Proof.
  unfold round_even. destruct (floor_bounds s) as [F1 F2]. set (f := Qfloor s) in *.
  assert (s - inject_Z f <= Qabs (s - inject_Z z) \/ inject_Z f + 1 - s <= Qabs (s - inject_Z z)) as B.
  { destruct (Z_le_gt_dec z f) as [L|G].
    - left. apply inject_le in L. rewrite Qabs_pos by lra. lra.
    - right. assert (f + 1 <= z)%Z as L by lia. apply inject_le in L. rewrite inject_Z_plus in L. change (inject_Z 1) with 1 in L. rewrite Qabs_neg by lra. lra. }
  assert (Qabs (s - inject_Z f) == s - inject_Z f) as A1 by (apply Qabs_pos; lra).
  assert (Qabs (s - inject_Z (f + 1)) == inject_Z f + 1 - s) as A2.
  { rewrite inject_Z_plus. change (inject_Z 1) with 1. rewrite Qabs_neg by lra. ring. }
  destruct (Qcompare (s - inject_Z f) (1 # 2)) eqn:C.
  - apply Qeq_alt in C. destruct (Z.even f); [rewrite A1|rewrite A2]; lra.
  - apply Qlt_alt in C. rewrite A1. lra.
  - apply Qgt_alt in C. rewrite A2. lra.
Qed.
Lemma round_even_range s lo hi : inject_Z lo <= s -> s <= inject_Z hi -> (lo <= round_even s <= hi)%Z.
Proof.
  intros L H. destruct (floor_bounds s) as [F1 F2]. assert (lo <= Qfloor s)%Z as A.
  { assert (lo < Qfloor s + 1)%Z; [|lia]. apply inject_lt_inv. rewrite inject_Z_plus. change (inject_Z 1) with 1. lra. }
  assert (Qfloor s <= hi)%Z as B by (apply inject_le_inv; lra).
  assert (inject_Z (Qfloor s) < s -> (Qfloor s + 1 <= hi)%Z) as D.
  { intros X. assert (Qfloor s < hi)%Z; [|lia]. apply inject_lt_inv. lra. }
  unfold round_even. destruct (Qcompare (s - inject_Z (Qfloor s)) (1 # 2)) eqn:C.
  - apply Qeq_alt in C. assert (inject_Z (Qfloor s) < s) as X by lra. specialize (D X). destruct (Z.even (Qfloor s)); lia.
  - lia.
  - apply Qgt_alt in C. assert (inject_Z (Qfloor s) < s) as X by lra. specialize (D X). lia.
Qed.
Lemma fl_pos_nearest x : 0 < x -> x <= two 1023 -> nearest x (fl_pos x).
Proof.
  intros P U. destruct (binade_spec x P) as [B1 B2]. unfold fl_pos. set (k := binade x) in *. set (e := Z.max (k - 52) (-1074)).
  assert (k <= 1023)%Z as K2.
  { destruct (Z_le_gt_dec k 1023) as [L|G]; [exact L|]. exfalso. assert (two 1023 < two k) by (apply two_lt; lia). lra. }
  assert (0 < two e) as EP by apply two_pos. assert (x / two e * two e == x) as XE by (field; lra).
  set (r := round_even (x / two e)).
  assert (forall z, Qabs (x - inject_Z r * two e) <= Qabs (x - inject_Z z * two e)) as NEAR.
  { intros z. assert (forall y, x - y * two e == (x / two e - y) * two e) as F by (intros y; rewrite <- XE at 1; ring).
    rewrite !F, !Qabs_Qmult. apply Qmult_le_compat_r; [apply round_even_near|apply Qabs_nonneg]. }
  assert (0 <= r <= 2 ^ 53)%Z as R.
  { apply round_even_range.
    - apply Qle_shift_div_l; [exact EP|]. change (inject_Z 0) with 0. lra.
    - apply Qle_shift_div_r; [exact EP|]. rewrite <- (two_Z 53) by lia. rewrite <- two_plus. apply Qle_trans with (two (k + 1)); [lra|]. apply two_le. lia. }
  assert (is_float (inject_Z r * two e)) as FL.
  { destruct (Z.eq_dec k 1023) as [KE|KN]; [|apply float_top; lia].
    assert (x == two 1023) as X1 by (rewrite <- KE in *; apply Qle_antisym; assumption). assert (e = 971)%Z as EE by lia. rewrite EE in *.
    assert (x == inject_Z (2 ^ 52) * two 971) as X2 by (rewrite X1, <- (two_Z 52) by lia; rewrite <- two_plus; reflexivity).
    specialize (NEAR (2 ^ 52)%Z). rewrite X2 in NEAR at 2. setoid_replace (inject_Z (2 ^ 52) * two 971 - inject_Z (2 ^ 52) * two 971) with 0 in NEAR by ring.
    change (Qabs 0) with 0 in NEAR. apply Qabs_Qle_condition in NEAR. apply float_comp with (inject_Z (2 ^ 52) * two 971); [|apply float_of; lia]. lra. }
  split; [exact FL|]. intros g (m & e' & M & E' & G).
  destruct (Z_le_gt_dec e e') as [L|L].
  - apply Qle_trans with (Qabs (x - inject_Z (m * 2 ^ (e' - e)) * two e)); [apply NEAR|]. rewrite G, inject_Z_mult, <- (two_Z (e' - e)) by lia.
    rewrite <- Qmult_assoc, <- two_plus. replace (e' - e + e)%Z with e' by lia. apply Qle_refl.
  - (* a number of a lower binade: 2^k is nearer *)
    assert (e = k - 52)%Z as EE by lia. assert (g < two k) as GK.
    { rewrite G. apply Qlt_le_trans with (inject_Z (2 ^ 53) * two e').
      - apply Qmult_lt_r; [apply two_pos|]. apply inject_lt. lia.
      - rewrite <- (two_Z 53) by lia. rewrite <- two_plus. apply two_le. lia. }
    apply Qle_trans with (Qabs (x - inject_Z (2 ^ 52) * two e)); [apply NEAR|].
    assert (inject_Z (2 ^ 52) * two e == two k) as TK by (rewrite <- (two_Z 52) by lia; rewrite <- two_plus; rewrite EE; replace (52 + (k - 52))%Z with k by lia; reflexivity).
    rewrite TK. rewrite !Qabs_pos by lra. lra.
Qed.
Lemma fl_rounding : rounding fl.
Proof.
  intros x M. unfold moderate in M. unfold fl. destruct (Qcompare x 0) eqn:C.
  - apply Qeq_alt in C. apply nearest_comp with 0 0; [now symmetry|reflexivity|]. split; [exists 0%Z, 0%Z; split; [reflexivity|split; [lia|reflexivity]]|].
    intros g _. change (Qabs (0 - 0)) with 0. apply Qabs_nonneg.
  - apply Qlt_alt in C. rewrite (Qabs_neg x) in M by lra. apply nearest_comp with (- - x) (- fl_pos (- x)); [ring|reflexivity|]. apply nearest_opp, fl_pos_nearest; lra.
  - apply Qgt_alt in C. rewrite (Qabs_pos x) in M by lra. now apply fl_pos_nearest.
Qed.

(** ** Any rounding *)
Lemma eps_val : eps == 1 # 9007199254740992.
Proof. reflexivity. Qed.
Lemma abs_bounds a b : Qabs a <= b -> - b <= a /\ a <= b.
Proof. intros H. now apply Qabs_Qle_condition. Qed.
Lemma bounds_abs a b : - b <= a -> a <= b -> Qabs a <= b.
Proof. intros H K. now apply Qabs_Qle_condition. Qed.

Section R.
  Context (rnd : Q -> Q) (RND : rounding rnd).
  Lemma rnd_rel x : normal x -> moderate x -> Qabs (rnd x - x) <= eps * Qabs x.
  Proof. intros N M. apply error; [exact N|exact M|]. now apply RND. Qed.
  Lemma rnd_pos x : 0 <= x -> normal x -> x <= two 1023 -> (1 - eps) * x <= rnd x /\ rnd x <= (1 + eps) * x.
  Proof.
    intros P N M. assert (moderate x) as M' by (unfold moderate; now rewrite Qabs_pos).
    pose proof (rnd_rel x N M') as H. rewrite (Qabs_pos x P) in H. apply abs_bounds in H. lra.
  Qed.
  Lemma rnd_float x : moderate x -> is_float (rnd x).
  Proof. intros M. now destruct (RND x M). Qed.
  Lemma rnd_exact x : moderate x -> is_float x -> rnd x == x.
  Proof. intros M F. apply nearest_exact; [exact F|]. now apply RND. Qed.
  Lemma int_float z : (Z.abs z < 2 ^ 53)%Z -> is_float (inject_Z z).
  Proof. intros H. apply float_comp with (inject_Z z * two 0); [change (two 0) with 1; ring|]. apply float_of; lia. Qed.
  Lemma moderate_le x y : Qabs x <= y -> y <= two 1023 -> moderate x.
  Proof. intros H K. unfold moderate. now apply Qle_trans with y. Qed.
  Lemma normal_le x : two (-1022) <= x -> normal x.
  Proof. intros H. left. apply Qle_trans with x; [exact H|]. apply Qle_Qabs. Qed.
  Lemma zero_fine : fine 0.
  Proof. exists 0%Z. reflexivity. Qed.

  (** ** Percentages *)
  Lemma below_one x : x <= 1 -> moderate x -> rnd x <= 1.
  Proof.
    intros L M. destruct (RND x M) as [_ H]. specialize (H 1 (int_float 1 ltac:(lia))). destruct (Qlt_le_dec 1 (rnd x)) as [C|C]; [|exact C].
    rewrite (Qabs_neg (x - rnd x)), (Qabs_neg (x - 1)) in H by lra. lra.
  Qed.
  Lemma big_enough q : Qabs q <= inject_Z (2 ^ 64) -> moderate q.
  Proof. intros H. apply moderate_le with (inject_Z (2 ^ 64)); [exact H|]. rewrite <- two_Z by lia. apply two_le. lia. Qed.
  Lemma reduction_error t o : (0 <= t)%Z -> (0 < o)%Z -> (t + o <= 10 ^ 12)%Z ->
    let exact := 100 * (inject_Z o - inject_Z t) in
    Qabs (f_reduction rnd t o * inject_Z o - exact) <= (400 # 9007199254740992) * inject_Z (t + o) /\ (0 <= f_reduction rnd t o <-> (t <= o)%Z).
  Proof.
    intros T O S. cbv zeta. unfold f_reduction.
    assert (rnd (inject_Z t) == inject_Z t) as RT. { apply rnd_exact; [|apply int_float; lia]. apply big_enough. change (Qabs (inject_Z t)) with (inject_Z (Z.abs t)). apply inject_le. lia. }
    assert (rnd (inject_Z o) == inject_Z o) as RO. { apply rnd_exact; [|apply int_float; lia]. apply big_enough. change (Qabs (inject_Z o)) with (inject_Z (Z.abs o)). apply inject_le. lia. }
    set (q0 := rnd (inject_Z t) / rnd (inject_Z o)). set (T' := inject_Z t). set (O' := inject_Z o).
    assert (0 <= T') as TP by (apply (inject_le 0); lia). assert (1 <= O') as OP by (apply (inject_le 1); lia).
    assert (T' + O' <= inject_Z (10 ^ 12)) as TO by (unfold T', O'; rewrite <- inject_Z_plus; now apply inject_le).
    change (inject_Z (10 ^ 12)) with 1000000000000 in TO.
    assert (q0 == T' / O') as Q0 by (unfold q0; rewrite RT, RO; reflexivity).
    set (w := T' / O') in *. assert (w * O' == T') as W by (unfold w; field; lra).
    assert (0 <= w) as WP. { unfold w. apply Qle_shift_div_l; lra. }
    assert (w <= T') as WT. { rewrite <- W. setoid_replace w with (w * 1) at 1 by ring. rewrite (Qmult_comm w 1), (Qmult_comm w O'). apply Qmult_le_compat_r; assumption. }
    assert (moderate q0) as MQ. { apply big_enough. rewrite Q0, Qabs_pos by exact WP. change (inject_Z (2 ^ 64)) with 18446744073709551616. lra. }
    assert (normal q0) as NQ.
    { destruct (Z.eq_dec t 0) as [E|NE].
      - right. apply fine_comp with 0; [|apply zero_fine]. rewrite Q0. unfold w, T'. rewrite E. change (inject_Z 0) with 0. field. lra.
      - apply normal_le. rewrite Q0. unfold w. apply Qle_shift_div_l; [lra|]. assert (1 <= T') by (apply (inject_le 1); lia).
        apply Qle_trans with (two (-53) * O'); [apply Qmult_le_compat_r; [apply two_le; lia|lra]|]. change (two (-53)) with (1 # 9007199254740992). lra. }
    pose proof (rnd_rel q0 NQ MQ) as E1. rewrite Q0 in E1 at 2 3. rewrite (Qabs_pos w WP) in E1. rewrite eps_val in E1. apply abs_bounds in E1.
    assert (is_float (rnd q0)) as FQ by (now apply rnd_float).
    assert (w <= 1 -> rnd q0 <= 1) as BO by (intros H; apply below_one; [now rewrite Q0|exact MQ]).
    set (q := rnd q0) in *.
    assert (Qabs (1 - q) <= 1 + (1 + (1 # 9007199254740992)) * w) as A1 by (apply bounds_abs; lra).
    assert (moderate (1 - q)) as M1. { apply big_enough. apply Qle_trans with (1 := A1). change (inject_Z (2 ^ 64)) with 18446744073709551616. lra. }
    assert (fine (1 - q)) as F1. { apply fine_comp with (inject_Z 1 + - q); [reflexivity|]. apply fine_plus; [apply fine_Z|]. now apply fine_opp, float_fine. }
    pose proof (rnd_rel _ (or_intror F1) M1) as E2. rewrite eps_val in E2. assert (is_float (rnd (1 - q))) as FD by (now apply rnd_float).
    set (d := rnd (1 - q)) in *.
    assert (fine (d * 100)) as F2. { apply (fine_mult d 100). now apply float_fine. }
    assert (Qabs d <= Qabs (1 - q) * (1 + (1 # 9007199254740992))) as A2.
    { pose proof (Qabs_triangle (d - (1 - q)) (1 - q)) as H. setoid_replace (d - (1 - q) + (1 - q)) with d in H by ring. lra. }
    assert (Qabs (d * 100) <= 100 * Qabs d) as A3. { rewrite Qabs_Qmult. change (Qabs 100) with 100. lra. }
    assert (moderate (d * 100)) as M2. { apply big_enough. change (inject_Z (2 ^ 64)) with 18446744073709551616. lra. }
    pose proof (rnd_rel _ (or_intror F2) M2) as E3. rewrite eps_val in E3. set (x := rnd (d * 100)) in *.
    assert (Qabs (x - 100 * (1 - w)) <= (400 # 9007199254740992) * (1 + w)) as EX.
    { assert (Qabs (x - d * 100) <= (100 # 9007199254740992) * Qabs d) as E3' by lra. apply abs_bounds in E3'. apply abs_bounds in E2.
      pose proof (Qabs_nonneg (1 - q)) as NN. pose proof (Qabs_nonneg d). apply bounds_abs; lra. }
    split.
    - assert (x * O' - 100 * (O' - T') == (x - 100 * (1 - w)) * O') as E4 by (rewrite <- W; ring). rewrite E4, Qabs_Qmult, (Qabs_pos O') by lra.
      apply Qle_trans with ((400 # 9007199254740992) * (1 + w) * O'); [apply Qmult_le_compat_r; lra|].
      rewrite inject_Z_plus. fold T' O'. rewrite <- W. apply Qle_lteq. right. ring.
    - assert (0 <= 1 - q -> 0 <= d) as S1.
      { intros H. rewrite (Qabs_pos (1 - q) H) in E2. apply abs_bounds in E2. lra. }
      assert (1 - q < 0 -> d < 0) as S2.
      { intros H. rewrite (Qabs_neg (1 - q)) in E2 by lra. apply abs_bounds in E2. lra. }
      assert (0 <= d -> 0 <= x) as S3.
      { intros H. rewrite (Qabs_pos (d * 100)) in E3 by lra. apply abs_bounds in E3. lra. }
      assert (d < 0 -> x < 0) as S4.
      { intros H. rewrite (Qabs_neg (d * 100)) in E3 by lra. apply abs_bounds in E3. lra. }
      split.
      + intros X. destruct (Z_le_gt_dec t o) as [L|G]; [exact L|]. exfalso. assert (o + 1 <= t)%Z as L by lia. apply inject_le in L. rewrite inject_Z_plus in L.
        change (O' + 1 <= T') in L.
        assert (1 < q) as Q1.
        { apply Qlt_le_trans with ((1 - (1 # 9007199254740992)) * w); [|lra]. setoid_replace ((1 - (1 # 9007199254740992)) * w) with (((1 - (1 # 9007199254740992)) * T') / O') by (rewrite <- W; field; lra).
          apply Qlt_shift_div_l; [lra|]. lra. }
        assert (d < 0) by (apply S2; lra). lra.
      + intros L. apply S3, S1. apply inject_le in L. assert (w <= 1) as W1. { unfold w. apply Qle_shift_div_r; [lra|]. rewrite Qmult_1_l. exact L. } specialize (BO W1). lra.
  Qed.
End R.

(** ** To one decimal place *)
Lemma round_even_half s : Qabs (s - inject_Z (round_even s)) <= 1 # 2.
Proof.
  destruct (floor_bounds s) as [F1 F2]. pose proof (round_even_near s (Qfloor s)) as H1. pose proof (round_even_near s (Qfloor s + 1)) as H2.
  rewrite inject_Z_plus in H2. change (inject_Z 1) with 1 in H2. rewrite (Qabs_pos (s - inject_Z (Qfloor s))) in H1 by lra.
  rewrite (Qabs_neg (s - (inject_Z (Qfloor s) + 1))) in H2 by lra. lra.
Qed.
(** the nearest whole number to [d] times a value near [p/o] is nearest to [d] times [p/o] *)
Lemma places_near x o p d n : (0 < o)%Z -> (0 < d)%Z -> 2 * inject_Z d * Qabs (x * inject_Z o - inject_Z p) < 1 ->
  Qabs (Qabs x * inject_Z d - inject_Z n) <= 1 # 2 -> (0 <= n)%Z /\ (2 * Z.abs (n * o - d * Z.abs p) <= o)%Z.
Proof.
  intros O D H R. set (O' := inject_Z o) in *. set (D' := inject_Z d) in *.
  assert (0 < O') as OP by (apply (inject_lt 0); exact O). assert (0 < D') as DP by (apply (inject_lt 0); exact D).
  assert (0 <= n)%Z as NN.
  { assert (0 <= Qabs x * D') as XN by (apply Qmult_le_0_compat; [apply Qabs_nonneg|lra]). apply abs_bounds in R. assert (-1 < n)%Z; [|lia]. apply inject_lt_inv. change (inject_Z (-1)) with (-1 # 1). lra. }
  split; [exact NN|].
  assert (Qabs (Qabs x * O' - inject_Z (Z.abs p)) <= Qabs (x * O' - inject_Z p)) as A.
  { change (inject_Z (Z.abs p)) with (Qabs (inject_Z p)). setoid_replace (Qabs x * O') with (Qabs (x * O')) by (rewrite Qabs_Qmult, (Qabs_pos O') by lra; reflexivity).
    pose proof (Qabs_triangle_reverse (x * O') (inject_Z p)) as T1. pose proof (Qabs_triangle_reverse (inject_Z p) (x * O')) as T2. rewrite (Qabs_Qminus (inject_Z p)) in T2.
    apply bounds_abs; lra. }
  set (B := Qabs (x * O' - inject_Z p)) in *.
  assert (forall a b c, 0 < c -> Qabs a <= b -> Qabs (a * c) <= b * c) as SC.
  { intros a b c C K. rewrite Qabs_Qmult, (Qabs_pos c) by lra. apply Qmult_le_compat_r; lra. }
  apply (SC _ _ O' OP), abs_bounds in R. apply (SC _ _ D' DP), abs_bounds in A.
  assert (Qabs x * D' * O' == Qabs x * O' * D') as CM by ring.
  assert (2 * inject_Z (Z.abs (n * o - d * Z.abs p)) < inject_Z (o + 1)) as G.
  { change (inject_Z (Z.abs (n * o - d * Z.abs p))) with (Qabs (inject_Z (n * o - d * Z.abs p))). unfold Z.sub. rewrite !inject_Z_plus, inject_Z_opp, !inject_Z_mult. fold O' D'.
    change (inject_Z 1) with 1.
    assert (Qabs (inject_Z n * O' + - (D' * inject_Z (Z.abs p))) <= (1 # 2) * O' + B * D') by (apply bounds_abs; lra). lra. }
  change 2 with (inject_Z 2) in G. rewrite <- inject_Z_mult in G. apply inject_lt_inv in G. lia.
Qed.
