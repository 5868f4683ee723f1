(** C52, C53 and C76. *)
From Coq Require Import String List NArith ZArith Bool Lia Arith.
From Verif Require Import Base Dec ExplainTree ExplainTreeProofs Otel TraceDiagram TraceDiagramSpec TraceDiagramProofs MermaidProofs.
Import ListNotations.
Local Open Scope nat_scope.

Definition sp (s : gostring) (cs : list (tree vm_span)) : tree vm_span := Node (Build_vm_span [] [] 0 0 s) cs.
Definition many : tree vm_span :=
  sp (lit "web") [sp (lit "db") []; sp (lit "db") []; sp (lit "api") [sp (lit "db") []];
                  sp (lit "db") []; sp (lit "db") []; sp (lit "db") []; sp (lit "db") []; sp (lit "db") []; sp (lit "db") [];
                  sp (lit "cache") []].

(** C52: the drawn tree stands for exactly the calls of the trace, in their order. *)
Theorem fold_lossless : forall t, expand (to_trace_node t) = [calls_of t].
Proof. exact expand_trace. Qed.
Example fold_lossless_ex :
  to_trace_node many =
  DNode (lit "web") [DNode (lit "db") []; DNode (lit "db") []; DNode (lit "api") [DNode (lit "db") []];
                     DNode (lit "db") []; DNode (lit "db") []; DNode (lit "db") []; DRepeat 3 (lit "db"); DNode (lit "cache") []].
Proof. reflexivity. Qed.
Print Assumptions fold_lossless.

(** At most four neighbouring drawn nodes stand for calls of one service that call nothing. *)
Theorem fold_compact : forall t s ds a m b s',
  drawn_in (DNode s ds) (to_trace_node t) -> ds = a ++ m ++ b -> Forall (stands_for s') m -> length m <= 4.
Proof. intros t s ds a m b s' H. exact (good_runs None ds (drawn_good t s ds H) a m b s'). Qed.
Example fold_compact_ex :
  exists ds a b, drawn_in (DNode (lit "web") ds) (to_trace_node many) /\
    ds = a ++ [DNode (lit "db") []; DNode (lit "db") []; DNode (lit "db") []; DRepeat 3 (lit "db")] ++ b.
Proof.
  do 3 eexists. split; [apply drawn_here|].
  instantiate (1 := [DNode (lit "cache") []]).
  instantiate (1 := [DNode (lit "db") []; DNode (lit "db") []; DNode (lit "api") [DNode (lit "db") []]]). reflexivity.
Qed.
Print Assumptions fold_compact.

(** A repetition stands for two calls or more and comes right after three drawn calls. *)
Theorem fold_repeat_place : forall t s a k s' b,
  drawn_in (DNode s (a ++ DRepeat k s' :: b)) (to_trace_node t) ->
  2 <= k /\ exists a', a = a' ++ [DNode s' []; DNode s' []; DNode s' []].
Proof. intros t s a k s' b H. exact (good_repeat None _ (drawn_good t s _ H) a k s' b eq_refl). Qed.
Example fold_repeat_place_ex :
  exists s a b, drawn_in (DNode s (a ++ DRepeat 3 (lit "db") :: b)) (to_trace_node many).
Proof.
  exists (lit "web"),
    [DNode (lit "db") []; DNode (lit "db") []; DNode (lit "api") [DNode (lit "db") []]; DNode (lit "db") []; DNode (lit "db") []; DNode (lit "db") []],
    [DNode (lit "cache") []].
  apply drawn_here.
Qed.
Print Assumptions fold_repeat_place.

(** C53: reading the diagram of a trace gives back its calls, and the activations are
    properly nested. *)
Lemma drawableb : forall s,
  (negb (existsb (N.eqb 10) s) && match cut (lit "->>") s with None => true | _ => false end &&
   match cut (lit ": ") s with None => true | _ => false end && match starts (lit "More ") s with None => true | _ => false end)%bool = true ->
  drawable s.
Proof.
  intros s H. rewrite !andb_true_iff in H. destruct H as (((H1 & H2) & H3) & H4). unfold drawable.
  split; [now apply lit_no_lf, negb_true_iff|].
  destruct (cut (lit "->>") s); [discriminate H2|]. destruct (cut (lit ": ") s); [discriminate H3|].
  destruct (starts (lit "More ") s); [discriminate H4|]. tauto.
Qed.
Theorem diagram_faithful : forall v c cs, let t := Node v (c :: cs) in
  Forall drawable (all_services t) ->
  diagram_calls (to_mermaid (to_trace_node t)) = Some (calls_of t).
Proof.
  intros v c cs t H. pose proof (wf_trace t H) as W. pose proof (expand_trace t) as E.
  unfold t in *. rewrite to_trace_node_eq in *.
  destruct (fold_ne c cs) as (d & ds & EF). rewrite EF in *.
  unfold diagram_calls. rewrite diagram_events_wf by exact W.
  pose proof (decode_root _ _ W) as D. cbn [expand] in E. injection E as E.
  cbn [calls_of map].
  rewrite <- E. cbn [flat_map] in D. rewrite <- D. cbn [events_of flat_map].
  destruct (start_ne (v_service v) d) as (b & tx & tl & ->). reflexivity.
Qed.
Theorem diagram_balanced : forall v c cs, let t := Node v (c :: cs) in
  Forall drawable (all_services t) ->
  exists es, diagram_events (to_mermaid (to_trace_node t)) = Some es /\ balanced [] es.
Proof.
  intros v c cs t H. pose proof (wf_trace t H) as W. unfold t in *. rewrite to_trace_node_eq in *.
  destruct (fold_ne c cs) as (d & ds & EF). rewrite EF in *.
  eexists. split; [apply diagram_events_wf; exact W|].
  rewrite <- (app_nil_r (events_of _)). now apply balanced_events.
Qed.
Example diagram_ex :
  Forall drawable (all_services many) /\
  to_mermaid (to_trace_node (sp (lit "web") [sp (lit "api") [sp (lit "db") []]])) =
    lit "sequenceDiagram" ++ [13%N; 10%N] ++ lit "web->>api: api" ++ lf ++ lit "activate api" ++ lf ++
    lit "api->>db: db" ++ lf ++ lit "api->>web: web" ++ lf ++ lit "deactivate api" ++ lf.
Proof.
  split; [|reflexivity]. apply Forall_forall. intros s H. apply drawableb.
  cbn in H. repeat (destruct H as [<-|H]; [reflexivity|]). contradiction H.
Qed.
Print Assumptions diagram_faithful.
Print Assumptions diagram_balanced.

(** Two traces with different calls have different diagrams. *)
Theorem diagram_injective : forall v c cs v' c' cs', let t := Node v (c :: cs) in let t' := Node v' (c' :: cs') in
  Forall drawable (all_services t) -> Forall drawable (all_services t') ->
  to_mermaid (to_trace_node t) = to_mermaid (to_trace_node t') -> calls_of t = calls_of t'.
Proof.
  intros v c cs v' c' cs' t t' H H' E.
  pose proof (diagram_faithful v c cs H) as A. pose proof (diagram_faithful v' c' cs' H') as B.
  fold t in A. fold t' in B. rewrite E, B in A. congruence.
Qed.
Example diagram_injective_ex :
  let t := sp (lit "web") [sp (lit "api") [sp (lit "db") []]] in
  Forall drawable (all_services t) /\ to_mermaid (to_trace_node t) <> to_mermaid (to_trace_node many).
Proof.
  split; [|discriminate]. apply Forall_forall. intros s H. apply drawableb.
  cbn in H. repeat (destruct H as [<-|H]; [reflexivity|]). contradiction H.
Qed.
Print Assumptions diagram_injective.

(** A trace of one span: one message from the service to itself. *)
Theorem diagram_single : forall v, drawable (v_service v) ->
  exists l2 l3, lines_of [] (to_mermaid (to_trace_node (Node v []))) = [[]; l2; l3; lit "    "] /\
    starts (lit "      ") l2 = Some (lit "sequenceDiagram") /\
    (exists l, starts (lit "      ") l3 = Some l /\ read_line l = Some (Msg (v_service v) (v_service v) (lit " "))).
Proof.
  intros v H. exists (lit "      sequenceDiagram"), (lit "      " ++ v_service v ++ lit "->>" ++ v_service v ++ lit ":  ").
  split; [|split; [reflexivity|]].
  - unfold to_mermaid. cbn [to_trace_node d_children d_service]. unfold mermaid_root_only.
    set (l3 := lit "      " ++ v_service v ++ lit "->>" ++ v_service v ++ lit ":  ").
    replace (lf ++ lit "      sequenceDiagram" ++ lf ++ lit "      " ++ v_service v ++ lit "->>" ++ v_service v ++ lit ":  " ++ lf ++ lit "    ")
      with (10%N :: lit "      sequenceDiagram" ++ 10%N :: l3 ++ 10%N :: lit "    ")
      by (unfold l3; rewrite <- !app_assoc; reflexivity).
    change (lines_of [] (10%N :: ?x)) with ([] :: lines_of [] x). f_equal.
    rewrite lines_one by now apply lit_no_lf. cbn [app]. f_equal. unfold l3.
    rewrite lines_one; [reflexivity|].
    apply no_lf_app; [now apply lit_no_lf|]. apply no_lf_app; [apply H|]. apply no_lf_app; [now apply lit_no_lf|].
    apply no_lf_app; [apply H|now apply lit_no_lf].
  - eexists. split; [reflexivity|].
    change (v_service v ++ lit "->>" ++ v_service v ++ lit ":  ") with (line_of (Msg (v_service v) (v_service v) (lit " "))).
    apply read_line_of. split; [exact H|]. split; [exact H|now apply lit_no_lf].
Qed.
Example diagram_single_ex : drawable (lit "web").
Proof. now apply drawableb. Qed.
Print Assumptions diagram_single.

(** The names are not checked: a service name with line ends adds lines of its own. *)
Theorem diagram_names_refuted :
  ~ (forall t es, diagram_events (to_mermaid (to_trace_node t)) = Some es -> balanced [] es).
Proof.
  intros H.
  specialize (H (sp (lit "r") [sp (lit "a: " ++ lf ++ lit "activate z" ++ lf ++ lit "r->>b: ") []])).
  cbv in H. specialize (H _ eq_refl). discriminate H.
Qed.
Print Assumptions diagram_names_refuted.

(** C76: from the trace of the program to the diagram of the report. *)
Theorem trace_to_diagram : forall ordc ordt srt n c cs, let t := Node n (c :: cs) in
  let tt := to_trace_tree (to_compact_view ordc ordt srt t) in
  Forall drawable (span_services t) ->
  diagram_calls (to_mermaid (tt_root tt)) = Some (span_calls t) /\
  tt_id tt = vt_id (to_compact_view ordc ordt srt t) /\
  (Z.abs (tt_duration tt * 1000000 - (s_end (n_span n) - s_start (n_span n))) < 1000000)%Z.
Proof.
  intros ordc ordt srt n c cs t tt H.
  assert (forall x, calls_of (to_view x) = span_calls x) as E1.
  { apply tree_ind'. intros m ms IH. cbn [to_view calls_of span_calls]. f_equal. rewrite map_map.
    apply map_ext_in. intros x Hx. rewrite Forall_forall in IH. now apply IH. }
  assert (forall x, all_services (to_view x) = span_services x) as E2.
  { apply tree_ind'. intros m ms IH. cbn [to_view all_services span_services]. f_equal.
    induction IH as [|y ms Hy _ IH2]; [reflexivity|]. cbn [map flat_map]. now rewrite Hy, IH2. }
  split; [|split; [reflexivity|]].
  - rewrite <- E1. apply (diagram_faithful (span_view (n_span n)) (to_view c) (map to_view cs)).
    change (Node (span_view (n_span n)) (to_view c :: map to_view cs)) with (to_view t). now rewrite E2.
  - subst tt t. unfold to_trace_tree, to_compact_view. cbn [tt_duration vt_root to_view t_val span_view v_end v_start].
    rewrite !Z.div_div by lia. change (1000 * 1000)%Z with 1000000%Z.
    pose proof (Z.div_mod (s_start (n_span n)) 1000000 ltac:(lia)). pose proof (Z.mod_pos_bound (s_start (n_span n)) 1000000 ltac:(lia)).
    pose proof (Z.div_mod (s_end (n_span n)) 1000000 ltac:(lia)). pose proof (Z.mod_pos_bound (s_end (n_span n)) 1000000 ltac:(lia)). lia.
Qed.
Example trace_to_diagram_ex :
  let n s := {| n_span := {| s_name := []; s_trace_id := [171%N]; s_span_id := []; s_start := 1999999; s_end := 5000000; s_attrs := []; s_service := s |}; n_parent := None |} in
  let t := Node (n (lit "web")) [Node (n (lit "db")) []] in
  Forall drawable (span_services t) /\ tt_duration (to_trace_tree (to_compact_view (fun l => l) (fun l => l) (fun l => l) t)) = 4%Z.
Proof.
  cbv zeta. split; [|reflexivity]. apply Forall_forall. intros s H. apply drawableb.
  cbn in H. repeat (destruct H as [<-|H]; [reflexivity|]). contradiction H.
Qed.
Print Assumptions trace_to_diagram.
