(** The total time of a line with rounded numbers. *)
From Coq Require Import String List NArith ZArith QArith Qpower Qround Qabs Bool Lia Arith Lqa.
From Verif Require Import Base ExplainTree MysqlExplain Floats FloatsSpec FloatsProofs FloatTimes.
Import ListNotations.
Local Open Scope Q_scope.

Section R.
  Context (rnd : Q -> Q) (RND : rounding rnd).
  Notation rnd_rel := (rnd_rel rnd RND).
  Notation rnd_pos := (rnd_pos rnd RND).
  (** ** Products of a time and a count *)
  Lemma loops_normal n : (0 <= n < 2 ^ 63)%Z -> normal (inject_Z n) /\ 0 <= inject_Z n /\ inject_Z n <= two 63.
  Proof.
    intros H. split; [right; apply fine_Z|]. split; [now apply (inject_le 0)|]. rewrite two_Z by lia. apply inject_le. lia.
  Qed.
  Lemma product_error a n : two (-1000) <= a -> a <= two 900 -> (0 <= n < 2 ^ 63)%Z ->
    Qabs (rnd (rnd a * rnd (inject_Z n)) - a * inject_Z n) <= two (-51) * (a * inject_Z n) /\ 0 < rnd a.
  Proof.
    intros L U N. destruct (loops_normal n N) as (N1 & N2 & N3).
    assert (two (-1000) == two 22 * two (-1022)) as T1 by (rewrite <- two_plus; reflexivity). change (two 22) with (inject_Z 4194304) in T1.
    assert (0 < two (-1022)) as TP by apply two_pos.
    assert (0 < a) as AP. { apply Qlt_le_trans with (2 := L). apply two_pos. }
    assert (two 900 <= two 1023) as B9 by (apply two_le; lia). assert (two 63 <= two 1023) as B6 by (apply two_le; lia).
    assert (normal a) as NA. { apply normal_le. apply Qle_trans with (2 := L). apply two_le. lia. }
    destruct (rnd_pos a) as [A1 A2]; [lra|exact NA|lra|]. destruct (rnd_pos (inject_Z n) N2 N1) as [B1 B2]; [lra|].
    rewrite eps_val in A1, A2, B1, B2. assert (0 < rnd a) as RP by lra. split; [|exact RP].
    destruct (Z.eq_dec n 0) as [-> | NZ].
    - assert (rnd (inject_Z 0) == 0) as R0. { change (inject_Z 0) with 0 in *. lra. }
      assert (rnd a * rnd (inject_Z 0) == 0) as P0 by (rewrite R0; ring).
      assert (moderate (rnd a * rnd (inject_Z 0))) as M0 by (unfold moderate; rewrite P0; apply Qlt_le_weak, two_pos).
      assert (normal (rnd a * rnd (inject_Z 0))) as Nm by (right; apply fine_comp with 0; [now symmetry|apply zero_fine]).
      pose proof (rnd_rel _ Nm M0) as H. rewrite P0 in H at 2 3. change (Qabs 0) with 0 in H. apply abs_bounds in H.
      change (inject_Z 0) with 0 in *. apply bounds_abs; lra.
    - assert (1 <= inject_Z n) as N4 by (apply (inject_le 1); lia).
      set (ra := rnd a) in *. set (rn := rnd (inject_Z n)) in *. set (x := a * inject_Z n).
      assert (0 < a * inject_Z n) as XP by (apply Qmult_lt_0_compat; lra).
      assert (ra * rn <= (1 + (1 # 9007199254740992)) * (1 + (1 # 9007199254740992)) * x) as P1.
      { apply Qle_trans with ((1 + (1 # 9007199254740992)) * a * rn); [apply Qmult_le_compat_r; lra|].
        apply Qle_trans with ((1 + (1 # 9007199254740992)) * a * ((1 + (1 # 9007199254740992)) * inject_Z n)); [apply Qmult_le_l; lra|]. unfold x. apply Qle_lteq. right. ring. }
      assert ((1 - (1 # 9007199254740992)) * (1 - (1 # 9007199254740992)) * x <= ra * rn) as P2.
      { apply Qle_trans with ((1 - (1 # 9007199254740992)) * a * ((1 - (1 # 9007199254740992)) * inject_Z n)); [unfold x; apply Qle_lteq; right; ring|].
        apply Qle_trans with ((1 - (1 # 9007199254740992)) * a * rn); [apply Qmult_le_l; lra|]. apply Qmult_le_compat_r; lra. }
      assert (a <= x) as AX. { unfold x. setoid_replace a with (a * 1) at 1 by ring. apply Qmult_le_l; assumption. }
      assert (x <= two 963) as XU. { change 963%Z with (900 + 63)%Z. rewrite two_plus. unfold x. apply Qle_trans with (a * two 63); [apply Qmult_le_l; assumption|]. apply Qmult_le_compat_r; [exact U|]. apply Qlt_le_weak, two_pos. }
      assert (two 964 == 2 * two 963) as T2 by (change 964%Z with (1 + 963)%Z; rewrite two_plus; reflexivity).
      assert (two 964 <= two 1023) as T3 by (apply two_le; lia).
      change (a * inject_Z n) with x in XP. change (a * inject_Z n) with x.
      destruct (rnd_pos (ra * rn)) as [C1 C2]; [lra| |lra|].
      { apply normal_le. lra. }
      rewrite eps_val in C1, C2. change (two (-51)) with (1 # 2251799813685248). apply bounds_abs; lra.
  Qed.
  Definition readable_time (l : result_line) : Prop :=
    (float_or_zero (rl_time_avg l) == 0 \/ (two (-1000) <= float_or_zero (rl_time_avg l) /\ float_or_zero (rl_time_avg l) <= two 900)) /\
    (0 <= int_or_zero (rl_loops l) < 2 ^ 63)%Z.
  Lemma rnd_zero x : x == 0 -> rnd x == 0.
  Proof.
    intros E. assert (moderate x) as M by (unfold moderate; rewrite E; apply Qlt_le_weak, two_pos).
    assert (normal x) as Nm by (right; apply fine_comp with 0; [now symmetry|apply zero_fine]).
    pose proof (rnd_rel _ Nm M) as H. rewrite E in H at 2 3. change (Qabs 0) with 0 in H. apply abs_bounds in H. lra.
  Qed.
  Lemma total_time_error l : readable_time l -> Qabs (f_total_time rnd l - total_time l) <= two (-51) * total_time l.
  Proof.
    intros [A N]. unfold f_total_time, total_time. set (a := float_or_zero (rl_time_avg l)) in *. set (n := int_or_zero (rl_loops l)) in *.
    assert (Qeq_bool (rnd a) 0 = Qeq_bool a 0) as EB.
    { destruct A as [A|[A1 A2]].
      - rewrite (proj2 (Qeq_bool_iff _ _) A). apply Qeq_bool_iff. now apply rnd_zero.
      - destruct (product_error a n A1 A2 N) as [_ P]. assert (0 < a) by (apply Qlt_le_trans with (2 := A1); apply two_pos).
        transitivity false; [|symmetry]; apply not_true_iff_false; intros H'; apply Qeq_bool_iff in H'; lra. }
    rewrite EB. destruct (Qeq_bool a 0 && Z.ltb 1000 n)%bool eqn:C.
    - refine (proj1 (product_error (1 # 10000) n _ _ N)); [|].
      + change (1 # 10000) with (1 # 10000). apply Qle_trans with (two (-14)); [apply two_le; lia|]. discriminate.
      + apply Qle_trans with (two 0); [discriminate|]. apply two_le. lia.
    - destruct A as [A|[A1 A2]]; [|now apply product_error].
      destruct (loops_normal n N) as (N1 & N2 & N3).
      assert (rnd (rnd a * rnd (inject_Z n)) == 0) as R. { apply rnd_zero. rewrite (rnd_zero a A). ring. }
      rewrite R, A. change (two (-51)) with (1 # 2251799813685248). apply bounds_abs; lra.
  Qed.

End R.
