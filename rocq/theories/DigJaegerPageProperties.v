(** C111: the report of the Jaeger dig command as the browser shows it. *)
From Coq Require Import String List NArith ZArith QArith Bool Lia Arith Permutation.
From Verif Require Import Base IndexBuild Json JsonSpec ExplainTree ExplainSpec ExplainTreeProofs Otel OtelSpec
  Pi HandOver HandOverSpec TraceDiagram TraceDiagramSpec ProgramSpec DigProgram DigPage DigProgramSpec.
From Verif Require TraceDiagramProperties HandOverProperties HandOverProofs.
Import ListNotations.
Local Open Scope nat_scope.

Lemma viewed_calls : forall t v, viewed t v -> calls_of v = span_calls t /\ all_services v = span_services t.
Proof.
  apply (tree_ind' (fun t => forall v, viewed t v -> calls_of v = span_calls t /\ all_services v = span_services t)).
  intros n cs IH v H. inversion H as [n0 v0 cs0 vs E1 E2 _ _ HF]; subst. cbn [calls_of span_calls all_services span_services]. rewrite E2.
  assert (K : map calls_of vs = map span_calls cs /\ flat_map all_services vs = flat_map span_services cs).
  { clear H E1 E2. revert vs HF. induction IH as [|c cs Hc _ IHl]; intros vs HF; inversion HF as [|? y ? ys Hx Hl]; subst; [split; reflexivity|].
    destruct (Hc y Hx) as [C1 C2]. destruct (IHl ys Hl) as [D1 D2]. cbn [map flat_map]. rewrite C1, C2, D1, D2. split; reflexivity. }
  destruct K as [-> ->]. split; reflexivity.
Qed.
Lemma rows_shown : forall ui base l, host_url ui base -> exists rows, shown_rows ui l = Ok rows /\
    Forall2 (fun t r => sr_id r = tt_id t /\ sr_millis r = tt_duration t /\ sr_count r = tt_count t /\ sr_service r = tt_service t /\
      sr_link r = base ++ lit "/trace/" ++ sr_id r /\ sr_diagram r = to_mermaid (tt_root t)) l rows.
Proof.
  intros ui base l H. induction l as [|t l (rows & E & F)]; [exists []; split; [reflexivity|constructor]|].
  cbn [shown_rows]. rewrite (HandOverProperties.trace_link_below_ui ui base (tt_id t) H), E. cbn [obind]. eexists. split; [reflexivity|].
  constructor; [|exact F]. cbn. repeat (split; [reflexivity|]). reflexivity.
Qed.
Lemma Forall2_nth_l : forall A B (R : A -> B -> Prop) l m, Forall2 R l m -> forall i y, nth_error m i = Some y -> exists x, nth_error l i = Some x /\ R x y.
Proof. intros A B R l m H. induction H as [|x y l m HR H IH]; intros [|i] z E; try discriminate; [injection E as <-; exists x; split; [reflexivity|exact HR]|apply IH; exact E]. Qed.
(** one table *)
Lemma table_shown : forall srtt ui base srt ts vs, host_url ui base -> is_sort longer srt ->
    Forall2 (trace_viewed srtt) ts vs -> exists rows, shown_rows ui (traces_table srt vs) = Ok rows /\ table_of srtt base ts rows.
Proof.
  intros srtt ui base srt ts vs HU HS HV. destruct (rows_shown ui base (traces_table srt vs) HU) as (rows & E & F).
  exists rows. split; [exact E|]. destruct (HandOverProperties.traces_table_longest_first srt vs HS) as [_ HO]. split.
  - destruct (HS (map to_trace_tree vs)) as [HP _]. unfold traces_table in F. destruct (Permutation_map_inv _ _ HP) as (vs' & EV & PV).
    rewrite EV in F. clear E HP HO.
    assert (K : exists ts', Permutation ts ts' /\ Forall2 (trace_viewed srtt) ts' vs').
    { clear EV F. revert ts HV. induction PV as [|x l l' P IH|x y l|l l' l'' P1 IH1 P2 IH2]; intros ts HV.
      - inversion HV; subst. exists []. split; constructor.
      - inversion HV as [|a ? as_ ? Ha Hl]; subst. destruct (IH _ Hl) as (ts' & Q1 & Q2). exists (a :: ts'). split; [now constructor|now constructor].
      - inversion HV as [|a ? as_ ? Ha Hl]; subst. inversion Hl as [|a2 ? as2 ? Ha2 Hl2]; subst. exists (a2 :: a :: as2). split; [constructor|]. constructor; [assumption|now constructor].
      - destruct (IH1 _ HV) as (t1 & Q1 & Q2). destruct (IH2 _ Q2) as (t2 & Q3 & Q4). exists t2. split; [eapply Permutation_trans; eauto|assumption]. }
    destruct K as (ts' & PT & VT). exists ts'. split; [exact PT|]. clear PT PV HV EV.
    revert rows F. induction VT as [|t v ts1 vs1 Hv HVs IH]; intros rows F; cbn [map] in F; inversion F as [|tt r tts rs Hr Hrs]; subst; constructor; [|now apply IH].
    destruct Hr as (R1 & R2 & R3 & R4 & R5 & R6). cbn [tt_id tt_duration tt_count tt_service tt_root to_trace_tree] in R1, R2, R3, R4, R6.
    destruct Hv as (V1 & V2 & V3 & V4 & V5). unfold row_for. rewrite R1, R3, R4, R6. split; [exact V1|]. split.
    { rewrite R2. inversion V2 as [n0 v0 cs0 vs0 _ _ B1 B2 _]; subst. cbn [t_val span_at]. unfold span_at. cbn [t_val]. lia. }
    split; [exact V3|]. split; [exact V4|]. split; [exact V5|]. split; [now rewrite <- R1|].
    intros HN HD. destruct (viewed_calls _ _ V2) as [C1 C2]. rewrite <- C1. rewrite <- C2 in HD. clear - V2 HN HD.
    destruct (vt_root v) as [v0 vs0]. inversion V2 as [n1 v1 cs1 vs1 _ _ _ _ HF EQ1 EQ2]; subst.
    destruct HF as [|c w cs ws HR HF]; [now elim HN|]. apply TraceDiagramProperties.diagram_faithful. exact HD.
  - intros i j a b Hij Ha Hb. destruct (Forall2_nth_l _ _ _ _ _ F i a Ha) as (x & X1 & _ & X2 & _).
    destruct (Forall2_nth_l _ _ _ _ _ F j b Hb) as (y & Y1 & _ & Y2 & _). rewrite X2, Y2. eapply HO; eauto.
Qed.

(** ** C111 *)
Theorem jaeger_page_opens : forall num_text num_value format srtt ui base fl inputs b srt srt',
    numbers (number_fine num_text num_value) (gr_map b) -> host_url ui base -> is_sort longer srt -> is_sort longer srt' ->
    jaeger_report srtt ui fl inputs b ->
    exists v d p, script_value num_value (report_script num_text (gr_map b)) = Some v /\
      open_page format (bundle_of b) v = Ok (PageJaeger d) /\ jaeger_page srt srt' d = Ok p /\
      jaeger_shown srtt base fl inputs p.
Proof.
  intros num_text num_value format srtt ui base fl inputs b srt srt' HN HU HS HS' (cs & slow & others & same & d & T & P1 & P2 & _ & P4 & P5 & -> & D1 & D2 & D3 & D4 & D5).
  destruct (HandOverProperties.report_opens_its_page num_text num_value format (BoJaeger d) HN I) as (v & p & E1 & E2 & E3).
  destruct p as [k x|s t| |d'| |]; cbn [page_shows] in E3; try contradiction. subst d'.
  exists v, d. destruct (table_shown srtt ui base srt slow (jd_slow d) HU HS D4) as (ra & A1 & A2).
  destruct (table_shown srtt ui base srt' same (jd_same_service d) HU HS' D5) as (rb & B1 & B2).
  eexists. split; [exact E1|]. split; [exact E2|]. unfold jaeger_page. rewrite D1, A1, B1. cbn [obind]. split; [reflexivity|].
  exists cs, slow, others, same. cbn [jt_slow jt_same_rows jt_slow_ms jt_same]. rewrite D2, D3.
  split; [exact T|]. split; [exact P1|]. split; [exact P2|]. split; [exact P4|]. split; [exact P5|]. split; [exact A2|]. split; [exact B2|]. split; reflexivity.
Qed.
Print Assumptions jaeger_page_opens.
