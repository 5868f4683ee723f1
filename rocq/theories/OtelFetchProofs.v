(** Proofs about the requests and the page. *)
From Coq Require Import String List NArith ZArith Bool Lia Arith Permutation.
From Verif Require Import Base IndexBuild ExplainTree ExplainSpec ExplainTreeProofs Lib LibProofs LibProperties
  Otel OtelSpec OtelProofs OtelForestProofs OtelCompactProofs.
Import ListNotations.
Local Open Scope Z_scope.

Lemma i64_small : forall z, - 2 ^ 63 <= z < 2 ^ 63 -> i64 z = z.
Proof. intros z H. unfold i64. rewrite Z.mod_small by lia. lia. Qed.
Lemma i32_small : forall z, - 2 ^ 31 <= z < 2 ^ 31 -> i32 z = z.
Proof. intros z H. unfold i32. rewrite Z.mod_small by lia. lia. Qed.

Lemma to_proto_duration_spec : forall d, - 2 ^ 63 <= d < 2 ^ 63 ->
    to_proto_duration d = (Z.quot d second, Z.rem d second).
Proof.
  intros d H. unfold to_proto_duration. cbv zeta. unfold second in *.
  pose proof (Z.quot_rem' d 1000000000) as HQ.
  assert (HR : - 1000000000 < Z.rem d 1000000000 < 1000000000).
  { pose proof (Z.rem_bound_abs d 1000000000 ltac:(lia)). lia. }
  assert (HS : 0 <= d /\ 0 <= Z.rem d 1000000000 <= d \/ d <= 0 /\ d <= Z.rem d 1000000000 <= 0).
  { destruct (Z.le_ge_cases 0 d) as [P|P].
    - left. split; auto. pose proof (Z.rem_bound_pos d 1000000000 P ltac:(lia)). pose proof (Z.quot_pos d 1000000000 P ltac:(lia)). lia.
    - right. split; auto. pose proof (Z.rem_opp_l d 1000000000 ltac:(lia)) as E1. pose proof (Z.quot_opp_l d 1000000000 ltac:(lia)) as E2.
      pose proof (Z.rem_bound_pos (- d) 1000000000 ltac:(lia) ltac:(lia)). pose proof (Z.quot_pos (- d) 1000000000 ltac:(lia) ltac:(lia)). lia. }
  rewrite (i64_small (d - Z.rem d 1000000000)) by lia.
  replace (d - Z.rem d 1000000000) with (Z.quot d 1000000000 * 1000000000) by lia.
  rewrite Z.quot_mul by lia. rewrite (i64_small (Z.quot d 1000000000 * 1000000000)) by lia.
  rewrite i64_small by lia. rewrite i32_small by lia. f_equal. lia.
Qed.

Lemma unix_spec : forall t, unix t * second <= t < (unix t + 1) * second.
Proof.
  intros t. unfold unix, second. pose proof (Z.div_mod t 1000000000 ltac:(lia)). pose proof (Z.mod_pos_bound t 1000000000 ltac:(lia)). lia.
Qed.
Lemma unix_shift : forall t k, unix (t + k * second) = unix t + k.
Proof. intros. unfold unix, second. apply Z.div_add. lia. Qed.
Lemma unix_le : forall a b, a <= b -> unix a <= unix b.
Proof. intros a b H. unfold unix, second. apply Z.div_le_mono; lia. Qed.

Section Fetch.
  Context (cli : client) (ords : nat -> nat -> list bytes -> list bytes) (srt : list (tree node) -> list (tree node))
    (size : Z) (service : gostring) (dur : Z).

  Lemma fetch_windows_Ok : forall times j r, fetch_windows cli ords srt size service dur j times = Ok r ->
      exists parts, r = concat parts /\ length parts = length times /\
        forall i start part, nth_error times i = Some start -> nth_error parts i = Some part ->
          exists traces, cli (query_at size service dur start) = Ok traces /\ find_compacted (ords (j + i)%nat) srt 0 traces = Ok part.
  Proof.
    induction times as [|start times IH]; intros j r H; cbn [fetch_windows] in H.
    - injection H as <-. exists []. split; [reflexivity|]. split; [reflexivity|]. intros [|i] ? ? E; discriminate.
    - destruct (cli (query_at size service dur start)) as [traces|e|] eqn:E1; cbn [obind] in H; try discriminate.
      destruct (find_compacted (ords j) srt 0 traces) as [cs|e|] eqn:E2; cbn [obind] in H; try discriminate.
      destruct (fetch_windows cli ords srt size service dur (S j) times) as [r'|e|] eqn:E3; cbn [obind] in H; try discriminate.
      injection H as <-. destruct (IH _ _ E3) as (parts & -> & HL & HN). exists (cs :: parts).
      split; [reflexivity|]. split; [simpl; congruence|]. intros [|i] st part K1 K2; simpl in K1, K2.
      + injection K1 as <-. injection K2 as <-. exists traces. rewrite Nat.add_0_r. auto.
      + replace (j + S i)%nat with (S j + i)%nat by lia. eauto.
  Qed.
  Lemma fetch_windows_Err : forall times j, (forall i k, any_order (ords i k)) -> is_sort start_less srt ->
      (forall q traces, cli q = Ok traces -> Forall complete_input traces) ->
      match fetch_windows cli ords srt size service dur j times with
      | Ok _ => Forall (fun start => exists traces, cli (query_at size service dur start) = Ok traces) times
      | Err e => exists a start b, times = a ++ start :: b /\ cli (query_at size service dur start) = Err e /\
          Forall (fun start => exists traces, cli (query_at size service dur start) = Ok traces) a
      | Panic => exists start, In start times /\ cli (query_at size service dur start) = Panic
      end.
  Proof.
    induction times as [|start times IH]; intros j Ho Hs Hc; cbn [fetch_windows]; [constructor|].
    destruct (cli (query_at size service dur start)) as [traces|e|] eqn:E1; cbn [obind].
    - pose proof (find_compacted_spec (ords j) srt traces 0 (Ho j) Hs) as HF.
      destruct (find_compacted (ords j) srt 0 traces) as [cs|e|]; cbn [obind]; [|tauto|].
      + specialize (IH (S j) Ho Hs Hc). destruct (fetch_windows cli ords srt size service dur (S j) times) as [r|e|]; cbn [obind].
        * constructor; eauto.
        * destruct IH as (a & st & b & -> & K1 & K2). exists (start :: a), st, b. split; [reflexivity|]. split; auto. constructor; eauto.
        * destruct IH as (st & K1 & K2). exists st. split; [now right|auto].
      + elim HF. eauto.
    - exists [], start, times. auto.
    - exists start. split; [now left|auto].
  Qed.
End Fetch.

Lemma hex_digit_inj : forall a b, (a < 16)%N -> (b < 16)%N -> hex_digit a = hex_digit b -> a = b.
Proof.
  intros a b Ha Hb H. unfold hex_digit in H. destruct (N.ltb_spec a 10), (N.ltb_spec b 10); lia.
Qed.
Lemma hex_inj : forall a b, Forall (fun x => (x < 256)%N) a -> Forall (fun x => (x < 256)%N) b -> hex a = hex b -> a = b.
Proof.
  induction a as [|x a IH]; intros [|y b] Ha Hb H; try discriminate; auto. inversion Ha; inversion Hb; subst.
  unfold hex in H. cbn [flat_map app] in H. injection H as E1 E2 E3.
  assert (x / 16 < 16)%N by (apply N.div_lt_upper_bound; lia). assert (y / 16 < 16)%N by (apply N.div_lt_upper_bound; lia).
  pose proof (N.mod_lt x 16 ltac:(lia)). pose proof (N.mod_lt y 16 ltac:(lia)).
  apply hex_digit_inj in E1; auto. apply hex_digit_inj in E2; auto.
  pose proof (N.div_mod x 16 ltac:(lia)). pose proof (N.div_mod y 16 ltac:(lia)).
  f_equal; [congruence|]. apply IH; auto.
Qed.
