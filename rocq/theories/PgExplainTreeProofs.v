(** Proofs about the PostgreSQL explain tree. *)
From Coq Require Import String List NArith ZArith QArith Bool Lia Arith.
From Verif Require Import Base Dec Regex ExplainTree ExplainSpec ExplainTreeProofs ExplainLevelProofs
  PgExplain PgExplainSpec PgExplainProofs.
Import ListNotations.
Local Open Scope nat_scope.

Definition bottom (F : @frames tree_node) : Prop :=
  match F with [] => False | _ => tn_space (fst (last F (root_node, []))) = (-1)%Z end.

Lemma bottom_tail : forall f g F, bottom (f :: g :: F) <-> bottom (g :: F).
Proof. intros. unfold bottom. reflexivity. Qed.
Lemma bottom_top : forall v ts ts' F, bottom ((v, ts) :: F) -> bottom ((v, ts') :: F).
Proof. intros v ts ts' [|f F] H; [exact H|]. now rewrite bottom_tail in *. Qed.

Lemma heap_val_alloc : forall (h : heap tree_node) x p, p < length h ->
    heap_val (fst (alloc h x)) p = heap_val h p.
Proof. intros h x p H. unfold heap_val. simpl. now rewrite nth_error_app1. Qed.
Lemma pop_indented_alloc : forall st sp (h : heap tree_node) x, Forall (fun p => p < length h) st ->
    pop_indented sp (fst (alloc h x)) st = pop_indented sp h st.
Proof.
  induction st as [|p st IH]; intros sp h x H; auto.
  inversion H; subst. cbn [pop_indented]. rewrite heap_val_alloc by auto.
  destruct (heap_val h p); auto. destruct (Z.leb _ _); auto.
Qed.

Lemma pop_indented_spec : forall st F (h : heap tree_node) sp, inv h st F -> bottom F ->
    exists st', pop_indented sp h st = Ok st' /\ inv h st' (zpop tn_space (Z.of_nat sp) [] F) /\
                last st' 0 = last st 0 /\ bottom (zpop tn_space (Z.of_nat sp) [] F).
Proof.
  induction st as [|p st IH]; intros F h sp HI HB.
  - destruct HI as (HS & _). inversion HS; subst. elim HB.
  - destruct F as [|[v ts] F]; [elim HB|].
    cbn [pop_indented]. rewrite (inv_val _ _ _ _ _ _ HI).
    destruct (Z.leb_spec (Z.of_nat sp) (tn_space v)) as [Hle|Hlt].
    + destruct F as [|[w ws] F].
      * unfold bottom in HB. simpl in HB. lia.
      * destruct st as [|q st].
        { destruct HI as (HS & _). apply stands_length in HS. simpl in HS. lia. }
        pose proof (inv_pop _ _ _ _ _ _ _ _ _ HI) as HI'.
        rewrite bottom_tail in HB. apply (bottom_top _ _ (ws ++ [Node v ts])) in HB.
        destruct (IH _ _ sp HI' HB) as (st' & H1 & H2 & H3 & H4).
        exists st'. rewrite zpop_pop by auto. repeat (split; auto).
    + exists (p :: st). rewrite zpop_top by lia. repeat (split; auto); apply HI.
Qed.

(** A group of lines and the node it shows. *)
Definition shows (g : list gostring) (n : tree_node) : Prop :=
  exists sp r, parse_node g = Ok (sp, r) /\ n = {| tn_node := r; tn_space := Z.of_nat sp |}.

Lemma collect_loop_spec : forall groups h st F, inv h st F -> bottom F -> last st 0 = 0 ->
    match collect_loop groups h st with
    | Ok h' => exists nodes st', Forall2 shows groups nodes /\
                 inv h' st' (zrun tn_space F nodes) /\ last st' 0 = 0
    | Err m => exists g, In g groups /\ parse_node g = Err m
    | Panic => exists g, In g groups /\ parse_node g = Panic
    end.
Proof.
  induction groups as [|g groups IH]; intros h st F HI HB HL.
  - simpl. exists [], st. repeat (split; auto). all: apply HI.
  - cbn [collect_loop].
    destruct (parse_node g) as [[sp r]|m|] eqn:EP; cbn [obind];
      [|exists g; split; [now left|auto]|exists g; split; [now left|auto]].
    destruct F as [|[v ts] F]; [elim HB|].
    destruct (inv_stack _ _ _ _ _ HI) as (top & st0 & ->).
    set (x := {| tn_node := r; tn_space := Z.of_nat sp |}).
    assert (HLt : Forall (fun p => p < length h) (top :: st0)) by (destruct HI as (_ & _ & HX & _); exact HX).
    destruct (alloc h x) as [h1 n] eqn:EA.
    assert (E1 : h1 = fst (alloc h x)) by now rewrite EA.
    assert (E2 : n = length h) by (unfold alloc in EA; congruence).
    assert (Hv : heap_val h1 top = Some v).
    { rewrite E1, heap_val_alloc by (inversion HLt; auto). eapply inv_val; eauto. }
    rewrite Hv.
    assert (ES : (if Z.ltb (tn_space v) (Z.of_nat sp) then Ok (top :: st0)
                  else pop_indented sp h1 st0) = pop_indented sp h (top :: st0)).
    { cbn [pop_indented]. rewrite (inv_val _ _ _ _ _ _ HI).
      destruct (Z.ltb_spec (tn_space v) (Z.of_nat sp)), (Z.leb_spec (Z.of_nat sp) (tn_space v)); try lia; auto.
      rewrite E1. apply pop_indented_alloc. now inversion HLt. }
    rewrite ES.
    destruct (pop_indented_spec _ _ _ sp HI HB) as (st' & H1 & H2 & H3 & H4).
    rewrite H1. cbn [obind].
    destruct (zpop tn_space (Z.of_nat sp) [] ((v, ts) :: F)) as [|[w ws] G] eqn:EZ; [elim H4|].
    destruct (inv_stack _ _ _ _ _ H2) as (q & st'' & ->).
    pose proof (inv_attach _ _ _ _ _ _ x H2) as HI2. rewrite <- E1, <- E2 in HI2.
    specialize (IH _ _ _ HI2 ltac:(now rewrite bottom_tail)).
    assert (HL2 : last (n :: q :: st'') 0 = 0).
    { change (last (n :: q :: st'') 0) with (last (q :: st'') 0). congruence. }
    specialize (IH HL2).
    destruct (collect_loop groups (add_child h1 q n) (n :: q :: st'')) as [h'|m|].
    + destruct IH as (nodes & s' & P1 & P2 & P3). exists (x :: nodes), s'.
      split; [constructor; auto; exists sp, r; auto|]. split; auto.
      change (zrun tn_space ((v, ts) :: F) (x :: nodes)) with
        (zrun tn_space ((x, []) :: zpop tn_space (Z.of_nat sp) [] ((v, ts) :: F)) nodes).
      now rewrite EZ.
    + destruct IH as (g' & Hin & Hg). exists g'. split; [now right|auto].
    + destruct IH as (g' & Hin & Hg). exists g'. split; [now right|auto].
Qed.

Lemma parse_node_panic : forall g, parse_node g = Panic <-> g = [].
Proof.
  intros g. split; [|intros ->; reflexivity].
  intros H. destruct g as [|l g]; auto. exfalso. unfold parse_node in H.
  set (ml := metric_line (l :: g)) in *.
  destruct (parse_estimation ml) as [[[[a b] c] d]|m|] eqn:E1; cbn [obind] in H; try discriminate.
  - destruct (parse_actual ml) as [[[[a' b'] c'] d']|m|] eqn:E2; cbn [obind] in H; try discriminate.
    unfold parse_actual in E2. destruct (find actual_reg ml); [|discriminate].
    unfold float_of, int_of, parse_failed in E2.
    repeat match type of E2 with context [match ?x with Some _ => _ | None => _ end] =>
      destruct x; cbn [obind] in E2; try discriminate end.
  - unfold parse_estimation in E1. destruct (find estimation_reg ml); [|discriminate].
    unfold float_of, int_of, parse_failed in E1.
    repeat match type of E1 with context [match ?x with Some _ => _ | None => _ end] =>
      destruct x; cbn [obind] in E1; try discriminate end.
Qed.

Lemma group_lines_nonempty : forall lines, Forall (fun g => g <> []) (fst (group_lines lines)).
Proof.
  intros lines. destruct (summary_at_exists lines) as (body & rest & HS).
  pose proof (group_lines_spec _ _ _ HS) as H. destruct body as [|b body].
  - rewrite H. constructor.
  - destruct H as (groups & (_ & HN & _) & ->). destruct rest; simpl; auto.
    clear - HN. induction HN as [|g gs H HN IH]; simpl; auto. destruct gs; auto.
Qed.

Lemma build_explain_spec : forall lines,
    match build_explain lines with
    | Ok (t, summary) => exists nodes, Forall2 shows (fst (group_lines lines)) nodes /\
          zclose (zrun tn_space [(root_node, [])] nodes) [] = Some t /\ summary = snd (group_lines lines)
    | Err m => exists g, In g (fst (group_lines lines)) /\ parse_node g = Err m
    | Panic => False
    end.
Proof.
  intros lines. unfold build_explain. pose proof (group_lines_nonempty lines) as HN.
  destruct (group_lines lines) as [groups summary]. simpl fst in *. cbn [alloc]. cbv beta iota.
  pose proof (collect_loop_spec groups _ _ _ (inv_init root_node) eq_refl eq_refl) as H.
  cbn [alloc fst app] in H. cbn [app length].
  destruct (collect_loop groups _ _) as [h|m|]; cbn [obind]; auto.
  - destruct H as (nodes & st & P1 & P2 & P3).
    destruct (inv_read _ _ _ P2) as (t & Hc & Ht); auto.
    { apply zrun_nonempty. congruence. }
    rewrite Ht. cbn [obind]. exists nodes. auto.
  - destruct H as (g & Hin & Hg). apply parse_node_panic in Hg. subst.
    rewrite Forall_forall in HN. specialize (HN _ Hin). congruence.
Qed.
