(** Proofs about the MySQL explain tree. *)
From Coq Require Import String List NArith ZArith QArith Bool Lia Arith.
From Verif Require Import Base Dec Regex ExplainTree ExplainSpec ExplainTreeProofs MysqlExplain.
Import ListNotations.
Local Open Scope nat_scope.

(** The lines that are not empty, parsed. *)
Definition nonempty (s : gostring) : bool := match s with [] => false | _ => true end.
Definition parses (lines : list gostring) (items : list (nat * result_line)) : Prop :=
  Forall2 (fun l it => parse_line l = Ok it) (filter nonempty lines) items.

Fixpoint jumps_ok (d : nat) (ns : list nat) : Prop :=
  match ns with [] => True | n :: r => n <= d /\ jumps_ok (S n) r end.

Lemma jumps_ok_iff : forall ns, jumps_ok 0 ns <-> no_jump ns.
Proof.
  assert (H : forall ns d, jumps_ok d ns <->
     (forall i, i < length ns -> nth i ns 0 <= match i with 0 => d | S j => S (nth j ns 0) end)).
  { induction ns as [|n ns IH]; intros d.
    - simpl. split; [|auto]. intros; lia.
    - cbn [jumps_ok]. rewrite IH. split.
      + intros [H1 H2] [|[|i]] Hi; simpl in *; auto.
        * apply (H2 0). lia.
        * apply (H2 (S i)). lia.
      + intros H. split; [apply (H 0); simpl; lia|].
        intros [|i] Hi.
        * apply (H 1). simpl; lia.
        * apply (H (S (S i))). simpl; lia. }
  intros ns. apply H.
Qed.

Lemma pop_deeper_spec : forall st (h : heap result_line) (F : @frames result_line) nest d, inv h st F -> nest < length F -> F <> [] ->
    exists F', inv h (pop_deeper nest st) F' /\ length F' = S nest /\
               zdepths F' = zdepths F /\ last (pop_deeper nest st) d = last st d /\
               option_map t_val (zclose F' []) = option_map t_val (zclose F []).
Proof.
  induction st as [|p st IH]; intros h F nest d HI Hlt HF.
  - destruct HI as (HS & _). inversion HS; subst. congruence.
  - pose proof (stands_length _ _ _ _ _ (proj1 HI)) as HL.
    cbn [pop_deeper]. destruct (Nat.ltb_spec nest (length (p :: st) - 1)) as [Hc|Hc].
    + destruct F as [|[x xs] [|[v ts] F]]; simpl in *; try lia.
      destruct st as [|q st]; simpl in HL; try lia.
      apply inv_pop in HI.
      destruct (IH h _ nest d HI) as (F' & H1 & H2 & H3 & H4 & H5).
      { simpl in *; lia. } { congruence. }
      exists F'. split; [auto|]. split; [auto|]. split; [|split].
      * rewrite H3. symmetry. apply zdepths_pop.
      * exact H4.
      * rewrite H5. symmetry. f_equal. apply zclose_pop.
    + exists F. simpl in *. repeat split; auto. all: try apply HI. lia.
Qed.

Lemma zclose_val : forall (F : @frames result_line) b b', option_map t_val (zclose F b) = option_map t_val (zclose F b').
Proof.
  induction F as [|[v ts] F IH]; intros b b'; auto.
  destruct F as [|f F]; [reflexivity|]. cbn [zclose]. apply IH.
Qed.

Lemma build_loop_spec : forall lines h st F, inv h st F -> F <> [] -> last st 0 = 0 ->
    match build_loop lines h st with
    | Ok h' => exists items st' F',
        parses lines items /\ inv h' st' F' /\ last st' 0 = 0 /\ F' <> [] /\
        option_map t_val (zclose F' []) = option_map t_val (zclose F []) /\
        zdepths F' = zdepths F ++ items /\ jumps_ok (length F - 1) (map fst items)
    | Err _ => ~ exists items, parses lines items /\ jumps_ok (length F - 1) (map fst items)
    | Panic => False
    end.
Proof.
  induction lines as [|line lines IH]; intros h st F HI HF HL.
  - simpl. exists [], st, F. split; [constructor|]. rewrite app_nil_r. simpl. tauto.
  - destruct line as [|c line].
    + specialize (IH h st F HI HF HL). exact IH.
    + cbn [build_loop].
      destruct (parse_line (c :: line)) as [[nest l]|m|] eqn:EP.
      2:{ simpl. intros (items & HP & _). inversion HP; subst. congruence. }
      2:{ unfold parse_line in EP.
          destruct (parse_estimation (c :: line)) as [[[? ?] ?]|?|] eqn:E1; cbn [obind] in EP; try congruence.
          - destruct (parse_actual (c :: line)) as [[[[? ?] ?] ?]|?|] eqn:E2; cbn [obind] in EP; try congruence.
            unfold parse_actual in E2. destruct (find actual_reg (c :: line)); [|congruence].
            unfold float_of, int_of, parse_failed in E2.
            repeat match type of E2 with context [match ?x with Some _ => _ | None => _ end] =>
              destruct x; cbn [obind] in E2; try congruence end.
          - unfold parse_estimation in E1. destruct (find estimation_reg (c :: line)); [|congruence].
            unfold float_of, int_of, parse_failed in E1.
            destruct (capd _ 2), (capd _ 4);
            repeat match type of E1 with context [match ?x with Some _ => _ | None => _ end] =>
              destruct x; cbn [obind] in E1; try congruence end. }
      cbn [obind]. cbn [alloc]. cbv beta iota.
      pose proof (stands_length _ _ _ _ _ (proj1 HI)) as HLen.
      assert (ATT : forall st1 F1, inv h st1 F1 -> length F1 = S nest -> nest <= length F - 1 ->
                zdepths F1 = zdepths F -> last st1 0 = 0 ->
                option_map t_val (zclose F1 []) = option_map t_val (zclose F []) ->
         match (match st1 with
                | [] => Panic
                | cur :: _ => build_loop lines (add_child (h ++ [{| c_val := l; c_children := [] |}]) cur (length h)) (length h :: st1)
                end) with
         | Ok h' => exists items st' F',
             parses ((c :: line) :: lines) items /\ inv h' st' F' /\ last st' 0 = 0 /\ F' <> [] /\
             option_map t_val (zclose F' []) = option_map t_val (zclose F []) /\
             zdepths F' = zdepths F ++ items /\ jumps_ok (length F - 1) (map fst items)
         | Err _ => ~ exists items, parses ((c :: line) :: lines) items /\ jumps_ok (length F - 1) (map fst items)
         | Panic => False
         end).
      { intros st1 F1 HI1 HF1 Hle HZ1 HL1 HV1.
        destruct F1 as [|[v ts] F1]; [simpl in HF1; lia|].
        destruct (inv_stack _ _ _ _ _ HI1) as (top & st1' & ->).
        pose proof (inv_attach _ _ _ _ _ _ l HI1) as HI2. cbn [alloc fst] in HI2.
        specialize (IH _ _ _ HI2 ltac:(congruence) HL1).
        assert (HD : zdepths ((l, []) :: (v, ts) :: F1) = zdepths F ++ [(nest, l)]).
        { rewrite zdepths_attach by congruence. rewrite HZ1, HF1. do 3 f_equal. lia. }
        assert (HK : length ((l, []) :: (v, ts) :: F1) - 1 = S nest).
        { simpl in *. lia. }
        rewrite HK in IH.
        destruct (build_loop lines _ _) as [h'|m|] eqn:EB; [| |exact IH].
        - destruct IH as (items & st' & F' & P1 & P2 & P3 & P4 & P5 & P6 & P7).
          exists ((nest, l) :: items), st', F'. split; [constructor; auto|].
          split; [auto|]. split; [auto|]. split; [auto|]. split; [|split].
          + rewrite P5, <- HV1. exact (zclose_val ((v, ts) :: F1) _ _).
          + rewrite P6, HD, <- app_assoc. reflexivity.
          + cbn [map fst jumps_ok]. auto.
        - intros (items & P1 & P2). apply IH.
          inversion P1 as [|? it ? items' HA HB]; subst.
          rewrite EP in HA. inversion HA; subst. exists items'. split; auto.
          cbn [map fst jumps_ok] in P2. tauto. }
      destruct (Nat.eqb_spec (length st - 1) nest) as [Heq|Hne].
      * apply (ATT st F); auto; destruct F; simpl in *; try congruence; lia.
      * destruct (Nat.ltb_spec nest (length st - 1)) as [Hlt|Hge].
        -- destruct F as [|[x xs] [|[v ts] F]]; simpl in HLen; try lia.
           destruct st as [|p [|q st]]; simpl in HLen; try lia.
           pose proof (inv_pop _ _ _ _ _ _ _ _ _ HI) as HI1.
           destruct (pop_deeper_spec _ _ _ nest 0 HI1) as (F' & H1 & H2 & H3 & H4 & H5).
           { simpl in *. lia. } { congruence. }
           cbn [tl]. apply (ATT _ F'); auto.
           ++ simpl in *. lia.
           ++ rewrite H3. symmetry. apply zdepths_pop.
           ++ rewrite H4. exact HL.
           ++ rewrite H5. symmetry. f_equal. apply zclose_pop.
        -- intros (items & P1 & P2). inversion P1 as [|? it ? items' HA HB]; subst.
           rewrite EP in HA. inversion HA; subst. cbn [map fst jumps_ok] in P2. lia.
Qed.

Lemma forest_no_jump : forall (f : list (tree result_line)) d r,
    jumps_ok d r -> (forall e, d <= e -> jumps_ok e r) ->
    jumps_ok d (map fst (forest_depths d f) ++ r).
Proof.
  intros f d r _ Hr.
  assert (HT : forall (t : tree result_line) d r, (forall e, d <= e -> jumps_ok e r) -> forall e, d <= e ->
             jumps_ok e (map fst (tree_depths d t) ++ r)).
  { apply (tree_ind' (fun t : tree result_line => forall d r, (forall e, d <= e -> jumps_ok e r) -> forall e, d <= e ->
             jumps_ok e (map fst (tree_depths d t) ++ r))).
    intros a cs HF d0 r0 Hr0 e He. simpl. split; auto.
    enough (HG : forall e, S d0 <= e -> jumps_ok e (map fst (flat_map (tree_depths (S d0)) cs) ++ r0)) by auto.
    induction HF as [|t ts Ht HF IH]; intros e' He'; simpl; [apply Hr0; lia|].
    rewrite map_app, <- app_assoc. apply Ht; auto. }
  assert (HG : forall e, d <= e -> jumps_ok e (map fst (forest_depths d f) ++ r)).
  { induction f as [|t f IH]; intros e He; simpl; auto.
    rewrite map_app, <- app_assoc. apply HT; auto. }
  auto.
Qed.

Lemma build_explain_spec : forall text,
    match build_explain text with
    | Ok t => t_val t = empty_line /\
              exists items, parses (split nl text) items /\ forest_depths 0 (t_children t) = items /\
                            no_jump (map fst items)
    | Err _ => ~ exists items, parses (split nl text) items /\ no_jump (map fst items)
    | Panic => False
    end.
Proof.
  intros text. unfold build_explain. cbn [alloc]. cbv beta iota.
  pose proof (build_loop_spec (split nl text) _ _ _ (inv_init empty_line)
                ltac:(congruence) eq_refl) as H.
  cbn [alloc fst] in H. simpl length in H. cbn [app Nat.sub] in H.
  cbn [app length].
  destruct (build_loop (split nl text) _ _) as [h|m|] eqn:E; cbn [obind].
  - destruct H as (items & st & F & P1 & P2 & P3 & P4 & P5 & P6 & P7).
    destruct (inv_read _ _ _ P2 P4 P3) as (t & Hc & Ht). rewrite Ht.
    split.
    + rewrite Hc in P5. simpl in P5. congruence.
    + exists items. split; auto. split.
      * rewrite <- (zdepths_close _ F t eq_refl Hc), P6. reflexivity.
      * now apply jumps_ok_iff.
  - intros (items & P1 & P2). apply H. exists items. split; auto. now apply jumps_ok_iff.
  - auto.
Qed.

Lemma parses_fun : forall lines a b, parses lines a -> parses lines b -> a = b.
Proof.
  unfold parses. intros lines. induction (filter nonempty lines) as [|l ls IH]; intros a b Ha Hb;
    inversion Ha; inversion Hb; subst; auto.
  f_equal; [congruence|auto].
Qed.

Lemma build_explain_iff : forall text t,
    build_explain text = Ok t <->
    t_val t = empty_line /\ parses (split nl text) (forest_depths 0 (t_children t)).
Proof.
  intros text t. pose proof (build_explain_spec text) as H. split.
  - intros E. rewrite E in H. destruct H as (H1 & items & H2 & <- & _). auto.
  - intros (Hv & HP).
    assert (HJ : no_jump (map fst (forest_depths 0 (t_children t)))).
    { apply jumps_ok_iff. rewrite <- (app_nil_r (map fst _)). apply forest_no_jump; simpl; auto. }
    destruct (build_explain text) as [t'|m|].
    + destruct H as (H1 & items & H2 & H3 & _). f_equal.
      rewrite (parses_fun _ _ _ H2 HP) in H3. apply forest_depths_inj in H3.
      destruct t, t'; simpl in *; congruence.
    + elim H. eauto.
    + elim H.
Qed.
