(** C38-C44, C70, C71: traces. *)
From Coq Require Import String List NArith ZArith Bool Lia Arith Permutation.
From Verif Require Import Base IndexBuild ExplainTree ExplainSpec ExplainTreeProofs LimitedHeap LimitedHeapSpec LimitedHeapProofs
  Lib LibProofs LibProperties Otel OtelSpec OtelProofs OtelForestProofs OtelCompactProofs OtelTimeProofs OtelFetchProofs.
Import ListNotations.
Local Open Scope nat_scope.

(** insertion sort, to run the examples *)
Fixpoint insert_by {A} (less : A -> A -> bool) (x : A) (l : list A) : list A :=
  match l with [] => [x] | y :: l' => if less y x then y :: insert_by less x l' else x :: l end.
Definition sort_by {A} (less : A -> A -> bool) (l : list A) : list A := fold_right (insert_by less) [] l.
Lemma insert_by_perm : forall A (less : A -> A -> bool) x l, Permutation (insert_by less x l) (x :: l).
Proof.
  intros A less x l. induction l as [|y l IH]; simpl; auto. destruct (less y x); auto.
  eapply Permutation_trans; [apply perm_skip, IH|apply perm_swap].
Qed.
Lemma sort_by_ok : forall A (less : A -> A -> bool), strict_weak less -> is_sort less (sort_by less).
Proof.
  intros A less [H1 H2] l. split.
  - induction l as [|x l IH]; simpl; auto. eapply Permutation_trans; [apply insert_by_perm|]. now constructor.
  - induction l as [|x l IH]; simpl; [constructor|]. revert IH. generalize (sort_by less l). induction l0 as [|y l0 IH]; intros HS; simpl.
    + constructor; constructor.
    + inversion HS as [|? ? S1 S2]; subst. destruct (less y x) eqn:E.
      * constructor; [|now apply IH]. apply Forall_forall. intros z Hz.
        eapply Permutation_in in Hz; [|apply insert_by_perm]. destruct Hz as [<-|Hz]; [now apply H1|].
        rewrite Forall_forall in S1. auto.
      * constructor; auto. constructor; auto. eapply Forall_impl; [|exact S1]. intros z Hz. simpl in Hz. eapply H2; eauto.
Qed.
Lemma start_less_sw : strict_weak start_less.
Proof.
  split; intros; unfold start_less in *; repeat match goal with
    | H : Z.ltb _ _ = true |- _ => apply Z.ltb_lt in H
    | H : Z.ltb _ _ = false |- _ => apply Z.ltb_ge in H
    end; apply Z.ltb_ge; lia.
Qed.
Lemma times_less_sw : strict_weak times_less.
Proof.
  split; intros; unfold times_less in *; repeat match goal with
    | H : Z.ltb _ _ = true |- _ => apply Z.ltb_lt in H
    | H : Z.ltb _ _ = false |- _ => apply Z.ltb_ge in H
    end; apply Z.ltb_ge; lia.
Qed.

(** ** C38 *)
Theorem spans_form_forest : forall ord srt input, any_order ord -> is_sort start_less srt ->
    match to_trace_trees ord srt input with
    | Ok ts =>
        complete_input input /\ Forall (span_tree input) ts /\ Forall (fun t => n_parent (t_val t) = None) ts /\
        NoDup (map id_of ts) /\ (forall id, In id (map id_of ts) <-> top_span input id) /\
        NoDup (flat_map ids ts) /\ (forall id, In id (flat_map ids ts) <-> rooted input id)
    | Err _ => False
    | Panic => ~ complete_input input
    end.
Proof. exact to_trace_trees_spec. Qed.
(** Complete input is converted. *)
Theorem complete_spans_convert : forall ord srt input, any_order ord -> is_sort start_less srt -> complete_input input ->
    exists ts, to_trace_trees ord srt input = Ok ts.
Proof.
  intros ord srt input Ho Hs Hc. pose proof (to_trace_trees_spec ord srt input Ho Hs) as H.
  destruct (to_trace_trees ord srt input); [eauto|tauto|tauto].
Qed.
(** Spans that are their own ancestors are in no tree. *)
Inductive ancestor (input : list resource_spans) : bytes -> bytes -> Prop :=
| anc_parent : forall a b, child_of input b a -> ancestor input a b
| anc_step : forall a b c, child_of input c b -> ancestor input a b -> ancestor input a c.
Lemma counts_for_fun : forall input id s rs s' rs', counts_for input id s rs -> counts_for input id s' rs' -> s = s' /\ rs = rs'.
Proof. intros input id s rs s' rs'. apply last_with_fun. Qed.
Lemma child_of_fun : forall input id p q, child_of input id p -> child_of input id q -> p = q.
Proof.
  intros input id p q (s & rs & H1 & H2 & _) (s' & rs' & H1' & H2' & _).
  destruct (counts_for_fun _ _ _ _ _ _ H1 H1'). congruence.
Qed.
Theorem cycles_dropped : forall input id, ancestor input id id -> ~ rooted input id.
Proof.
  intros input id HC HR. revert HC. induction HR as [id HT|id pid HC HR IH]; intros HA.
  - assert (HP : exists p, child_of input id p) by (inversion HA; subst; eauto). destruct HP as (p & s & rs & K1 & K2 & K3 & K4).
    destruct HT as (s' & rs' & T1 & T2). destruct (counts_for_fun _ _ _ _ _ _ K1 T1) as [-> ->]. subst p. destruct T2; tauto.
  - apply IH. assert (G : forall a b, ancestor input a b -> forall p, child_of input b p -> p = a \/ ancestor input a p).
    { intros a b H. inversion H; subst; intros p Hp.
      - left. eapply child_of_fun; eauto.
      - right. replace p with b0 by (eapply child_of_fun; eauto). auto. }
    destruct (G _ _ HA _ HC) as [->|K]; [exact HA|].
    assert (G2 : forall a q, ancestor input a q -> forall p, child_of input a p -> ancestor input p q).
    { clear. intros a q K. induction K as [a b K|a b c K1 K2 IH]; intros p Hp.
      - apply anc_step with a; auto. now apply anc_parent.
      - apply anc_step with b; auto. }
    eauto.
Qed.

Definition sp (name : string) (id parent : N) (s e : Z) (attrs : list (gostring * any_value)) : raw_span :=
  {| r_name := of_string name; r_trace_id := [7%N]; r_span_id := [id]; r_parent_id := [parent]; r_start := s; r_end := e; r_attrs := attrs |}.
Definition res (service : string) (l : list raw_span) : resource_spans :=
  {| rs_attrs := Some [(lit "host", AString (lit "h")); (lit "service.name", AString (of_string service))]; rs_spans := [l] |}.
(** a root with children of its own and other services, a span whose parent is
    missing, a cycle, and an id that occurs twice *)
Definition example_input : list resource_spans :=
  [res "web" [sp "root" 1 0 100 200 []; sp "late" 3 1 150 160 []; sp "early" 2 1 110 140 [];
              sp "orphan" 5 99 10 20 []; sp "loop1" 6 7 1 2 []; sp "loop2" 7 6 1 2 []; sp "old" 4 1 0 0 []];
   res "api" [sp "call" 4 2 115 130 [(lit "k", AInt 3)];
              sp "query" 8 4 118 120 [(lit "db.system", AString (lit "mysql"))];
              sp "self" 9 4 121 122 []]].
Definition names (t : tree node) : list gostring := map (fun n => s_name (n_span n)) (preorder t).
Definition ssort := sort_by start_less.
Example forest_run : exists a b, to_trace_trees (fun l => l) ssort example_input = Ok [a; b] /\
    names a = map of_string ["root"; "early"; "call"; "query"; "self"; "late"]%string /\ names b = [lit "orphan"].
Proof.
  destruct (to_trace_trees (fun l => l) ssort example_input) as [[|a [|b [|c l]]]|e|] eqn:E; vm_compute in E; try discriminate.
  exists a, b. injection E as <- <-. repeat split; vm_compute; reflexivity.
Qed.
Example forest_hypotheses : any_order (@rev bytes) /\ is_sort start_less ssort /\ complete_input example_input.
Proof.
  split; [intros l; apply Permutation_sym, Permutation_rev|]. split; [apply sort_by_ok, start_less_sw|].
  unfold complete_input. vm_compute. auto 20 using Forall_cons, Forall_nil, I.
Qed.
Example forest_cycle : ancestor example_input [6%N] [6%N].
Proof.
  assert (K : forall id s rs, (exists a b, all_spans example_input = a ++ (s, rs) :: b /\
             Forall (fun x => r_span_id (fst x) <> id) b) -> r_span_id s = id -> counts_for example_input id s rs).
  { intros id s rs (a & b & E & F) Hid. exists a, b. auto. }
  assert (K6 : exists rs, counts_for example_input [6%N] (sp "loop1" 6 7 1 2 []) rs).
  { eexists. apply K; [|reflexivity]. eexists [_; _; _; _], _. split; [reflexivity|].
    repeat (apply Forall_cons; [discriminate|]). apply Forall_nil. }
  assert (K7 : exists rs, counts_for example_input [7%N] (sp "loop2" 7 6 1 2 []) rs).
  { eexists. apply K; [|reflexivity]. eexists [_; _; _; _; _], _. split; [reflexivity|].
    repeat (apply Forall_cons; [discriminate|]). apply Forall_nil. }
  destruct K6 as (r6 & K6), K7 as (r7 & K7).
  assert (C6 : child_of example_input [6%N] [7%N]).
  { exists (sp "loop1" 6 7 1 2 []), r6. split; [exact K6|]. split; [reflexivity|]. split; [|unfold known; eauto].
    intros H. inversion H. discriminate. }
  assert (C7 : child_of example_input [7%N] [6%N]).
  { exists (sp "loop2" 7 6 1 2 []), r7. split; [exact K7|]. split; [reflexivity|]. split; [|unfold known; eauto].
    intros H. inversion H. discriminate. }
  apply anc_step with [7%N]; auto. now apply anc_parent.
Qed.
(** An attribute without value stops the program, although OTLP allows it. *)
Theorem unset_attribute_panics : forall ord srt input, any_order ord -> is_sort start_less srt ->
    (exists x k, In x (all_spans input) /\ In (k, AUnset) (r_attrs (fst x))) -> to_trace_trees ord srt input = Panic.
Proof.
  intros ord srt input Ho Hs (x & k & H1 & H2). pose proof (to_trace_trees_spec ord srt input Ho Hs) as H.
  destruct (to_trace_trees ord srt input) as [ts|e|]; [|tauto|reflexivity].
  destruct H as [H _]. unfold complete_input in H. rewrite Forall_forall in H. specialize (H x H1). rewrite Forall_forall in H.
  now specialize (H _ H2).
Qed.
Example unset_run : to_trace_trees (fun l => l) ssort [res "web" [sp "root" 1 0 100 200 [(lit "k", AUnset)]]] = Panic.
Proof. reflexivity. Qed.

(** ** C39 *)
Theorem compaction_keeps_boundaries : forall t, linked None t -> distinct_spans t ->
    exists t', compact t = Ok (Some t') /\ compacted_of t t'.
Proof. exact compact_spec. Qed.
(** The ways determine the compacted tree: two trees fitting the description have the
    same spans in the same places. *)
Lemma sublist_where_fun : forall A (P : A -> Prop) l a b, sublist_where P l a -> sublist_where P l b -> a = b.
Proof.
  intros A P l a b H. revert b. induction H as [|x l l' Hx Hl IH|x l l' Hx Hl IH]; intros b Hb; inversion Hb; subst; auto; try tauto.
  f_equal. auto.
Qed.
Lemma shown_as_fun : forall t s s', shown_as t s -> shown_as t s' -> s = s'.
Proof.
  intros t s s' H H'. unfold shown_as in *. destruct H as (A1 & A2 & A3 & A4 & A5 & A6 & A7 & A8).
  destruct H' as (B1 & B2 & B3 & B4 & B5 & B6 & B7 & B8).
  assert (E : s_service s = s_service s').
  { assert (D : db_leaf t \/ ~ db_leaf t).
    { destruct t as [n cs]. rewrite <- is_last_db_spec. destruct (is_last_db (n_span n) cs); [now left|now right]. }
    destruct D as [D|D].
    - destruct (A7 D) as (d & E1 & F1), (B7 D) as (d' & E2 & F2). rewrite E1, E2. f_equal.
      destruct F1 as [[-> F1]|F1], F2 as [[-> F2]|F2]; auto.
      + now elim (F1 _ F2).
      + now elim (F2 _ F1).
      + congruence.
    - rewrite A8, B8; auto. }
  destruct s, s'; simpl in *; congruence.
Qed.
Lemma shortened_fun : forall w a b, shortened w a -> shortened w b -> a = b.
Proof.
  intros w a b H. revert b. induction H as [|t w s sh H1 H2 H3 IH|t w sh H1 H2 IH]; intros b Hb; inversion Hb; subst; auto; try tauto.
  f_equal; [eapply shown_as_fun; eauto|auto].
Qed.
Theorem compaction_determined : forall t a b, compacted_of t a -> compacted_of t b ->
    map (map span_at) (paths [] a) = map (map span_at) (paths [] b).
Proof.
  intros t a b (k & A1 & A2) (k' & B1 & B2). pose proof (sublist_where_fun _ _ _ _ _ A1 B1) as <-.
  clear A1 B1. revert B2. generalize (paths [] b). induction A2 as [|w w' k' l A A2 IH]; intros m HB; inversion HB; subst; auto.
  cbn [map]. f_equal; [|auto]. eapply shortened_fun; eauto.
Qed.
(** All traces of the server are compacted, unless an attribute has no value. *)
Theorem traces_compacted : forall ords srt traces, (forall i, any_order (ords i)) -> is_sort start_less srt ->
    match find_compacted ords srt 0 traces with
    | Ok cs => Forall complete_input traces /\
        exists tss, length tss = length traces /\
          (forall i tr ts, nth_error traces i = Some tr -> nth_error tss i = Some ts -> to_trace_trees (ords i) srt tr = Ok ts) /\
          Forall2 compacted_of (concat tss) cs
    | Err _ => False
    | Panic => ~ Forall complete_input traces
    end.
Proof. intros ords srt traces Ho Hs. apply (find_compacted_spec ords srt traces 0); auto. Qed.
Definition pairs (t : tree node) : list (list (gostring * gostring)) :=
  map (map (fun u => (s_name (span_at u), s_service (span_at u)))) (paths [] t).
Example compact_run : exists a b, find_compacted (fun _ l => l) ssort 0 [example_input] = Ok [a; b] /\
    pairs a = map (map (fun p => (of_string (fst p), of_string (snd p))))
      [[("root", "web")]; [("call", "api"); ("root", "web")];
       [("query", "mysql (api)"); ("call", "api"); ("root", "web")]]%string.
Proof.
  destruct (find_compacted (fun _ l => l) ssort 0 [example_input]) as [[|a [|b [|c l]]]|e|] eqn:E; vm_compute in E; try discriminate.
  exists a, b. injection E as <- <-. split; vm_compute; reflexivity.
Qed.
Example compact_hypotheses : exists t, linked None t /\ distinct_spans t /\ length (preorder t) = 6.
Proof.
  destruct forest_hypotheses as (_ & Hs & _).
  assert (Ho : any_order (fun l : list bytes => l)) by (intros l; apply Permutation_refl).
  destruct forest_run as (a & b & E & Na & _). pose proof (spans_form_forest _ _ example_input Ho Hs) as H. rewrite E in H.
  destruct H as (_ & H1 & H2 & _ & _ & H3 & _). inversion H1; subst. inversion H2; subst. exists a. split; [|split].
  - match goal with H : n_parent (t_val a) = None |- _ => rewrite <- H end. eapply span_tree_linked; eauto.
  - apply ids_distinct. apply NoDup_flat_map_each in H3. now inversion H3.
  - apply (f_equal (@length _)) in Na. unfold names in Na. rewrite map_length in Na. exact Na.
Qed.

(** ** C40 *)
Theorem consumed_is_uncovered : forall srt t, is_sort times_less srt -> Forall forwards (child_times t) ->
    Forall (fun iv => (snd iv <= s_end (span_at t))%Z) (child_times t) ->
    (0 <= s_start (span_at t) <= s_end (span_at t))%Z -> (s_end (span_at t) < 2 ^ 64)%Z ->
    exists l, uncovered (child_times t) (s_start (span_at t)) (s_end (span_at t)) l /\ consumed_time srt t = Z.of_nat (length l).
Proof. exact consumed_within. Qed.
Theorem uncovered_count : forall ivs lo hi a b, uncovered ivs lo hi a -> uncovered ivs lo hi b -> length a = length b.
Proof. exact uncovered_unique. Qed.
(** In general the time a child runs on after its parent is subtracted. *)
Theorem consumed_formula : forall srt t, is_sort times_less srt -> Forall forwards (child_times t) ->
    let m := latest (s_start (span_at t)) (child_times t) in
    exists l, uncovered (child_times t) (s_start (span_at t)) m l /\
      consumed_time srt t = ((Z.of_nat (length l) + (s_end (span_at t) - m)) mod 2 ^ 64)%Z.
Proof. exact consumed_time_spec. Qed.
Definition plain (s e : Z) (cs : list (tree node)) : tree node :=
  Node {| n_span := {| s_name := []; s_trace_id := []; s_span_id := []; s_start := s; s_end := e; s_attrs := []; s_service := lit "a" |};
          n_parent := None |} cs.
Definition tsort := sort_by times_less.
Example consumed_run : consumed_time tsort (plain 100 200 [plain 150 170 []; plain 90 120 []; plain 110 115 []; plain 160 180 []]) = 50%Z.
Proof. reflexivity. Qed.
Example consumed_hypotheses : let t := plain 100 200 [plain 150 170 []; plain 90 120 []; plain 110 115 []; plain 160 180 []] in
    is_sort times_less tsort /\ Forall forwards (child_times t) /\
    Forall (fun iv => (snd iv <= s_end (span_at t))%Z) (child_times t).
Proof.
  split; [apply sort_by_ok, times_less_sw|]. unfold forwards. cbn.
  split; repeat (apply Forall_cons; [cbn; lia|]); apply Forall_nil.
Qed.
(** 5 of the 10 nanoseconds are not covered, 3 are reported. *)
Theorem outliving_child_refuted : exists t l, Forall forwards (child_times t) /\
    uncovered (child_times t) (s_start (span_at t)) (s_end (span_at t)) l /\
    length l = 5 /\ forall srt, is_sort times_less srt -> consumed_time srt t = 3%Z.
Proof.
  exists (plain 0 10 [plain 5 12 []]), [0; 1; 2; 3; 4]%Z. split; [unfold forwards; cbn; apply Forall_cons; [cbn; lia|apply Forall_nil]|].
  split; [|split; [reflexivity|]].
  - split; [repeat constructor; simpl; lia|]. intros x. unfold covers. cbn. split.
    + intros H. split; [lia|]. apply Forall_cons; [cbn; lia|apply Forall_nil].
    + intros [H1 H2]. inversion H2; subst. cbn in *. lia.
  - intros srt H. unfold consumed_time. cbn [t_children map plain]. destruct (H [(5, 12)%Z]) as [P _]. apply Permutation_sym, Permutation_length_1_inv in P.
    cbn in *. rewrite P. reflexivity.
Qed.
(** It can wrap around. *)
Theorem outliving_child_wraps : exists t, Forall forwards (child_times t) /\
    forall srt, is_sort times_less srt -> consumed_time srt t = (2 ^ 64 - 5)%Z.
Proof.
  exists (plain 0 10 [plain 0 15 []]). split; [unfold forwards; cbn; apply Forall_cons; [cbn; lia|apply Forall_nil]|].
  intros srt H. unfold consumed_time. cbn [t_children map plain]. destruct (H [(0, 15)%Z]) as [P _]. apply Permutation_sym, Permutation_length_1_inv in P.
  cbn in *. rewrite P. reflexivity.
Qed.

(** ** C41 *)
Theorem most_consuming_service : forall srt ord t, any_order ord ->
    let r := time_consuming_service srt ord t in let total := fun svc => service_total (consumed_time srt) svc (spans_of t) in
    (r = [] /\ forall svc, has_service svc (spans_of t) -> total svc = 0%Z) \/
    (has_service r (spans_of t) /\ (0 < total r)%Z /\ forall svc, has_service svc (spans_of t) -> (total svc <= total r)%Z).
Proof. exact time_consuming_spec. Qed.
(** Among equals the order of the run decides. *)
Theorem most_consuming_tie : forall srt t svc, has_service svc (spans_of t) ->
    let total := fun s => service_total (consumed_time srt) s (spans_of t) in
    (0 < total svc)%Z -> (forall s, has_service s (spans_of t) -> (total s <= total svc)%Z) ->
    exists ord, any_order ord /\ time_consuming_service srt ord t = svc.
Proof.
  intros srt t svc H total H1 H2. exists (first_entries svc). split; [apply first_entries_order|]. now apply time_consuming_tie.
Qed.
(** [spans_of] are the spans of the tree. *)
Theorem spans_are_preorder : forall t, map t_val (spans_of t) = preorder t.
Proof. exact spans_of_preorder. Qed.
Definition with_service (svc : string) (t : tree node) : tree node :=
  match t with Node n cs => Node {| n_span := set_service (n_span n) (of_string svc); n_parent := n_parent n |} cs end.
Definition two_services : tree node :=
  with_service "web" (plain 0 100 [with_service "api" (plain 10 50 [with_service "db" (plain 20 60 [])]); with_service "db" (plain 60 90 [])]).
Example most_consuming_run : time_consuming_service tsort (fun l => l) two_services = lit "db" /\
    service_total (consumed_time tsort) (lit "db") (spans_of two_services) = 70%Z /\
    service_total (consumed_time tsort) (lit "web") (spans_of two_services) = 30%Z /\
    has_service (lit "api") (spans_of two_services).
Proof.
  split; [reflexivity|]. split; [reflexivity|]. split; [reflexivity|].
  eexists. split; [right; left; reflexivity|reflexivity].
Qed.
Example most_consuming_ties : let t := with_service "web" (plain 0 20 [with_service "api" (plain 10 20 [])]) in
    time_consuming_service tsort (fun l => l) t = lit "web" /\ time_consuming_service tsort (@rev _) t = lit "api".
Proof. split; reflexivity. Qed.

(** ** C42 *)
Theorem slow_traces_are_slowest : forall num traces,
    exists picked others, pick_slow num traces = Ok picked /\ Permutation (picked ++ others) traces /\
      Z.of_nat (length picked) = Z.min (Z.max 0 num) (Z.of_nat (length traces)) /\
      sorted_by (fun a b => Z.ltb (took b) (took a)) picked /\
      forall p o, In p picked -> In o others -> (took o <= took p)%Z.
Proof.
  intros num traces. unfold pick_slow.
  destruct (heap_keeps_greatest _ faster num traces faster_strict_weak) as (kept & dropped & E & HP & HL & HS & HD).
  rewrite E. cbn [obind fst]. exists (rev kept), dropped. split; [reflexivity|].
  split; [eapply Permutation_trans; [apply Permutation_app_tail, Permutation_sym, Permutation_rev|exact HP]|].
  split; [rewrite rev_length; exact HL|]. split.
  - assert (G : forall l acc, sorted_by faster l -> sorted_by (fun a b => Z.ltb (took b) (took a)) acc ->
        (forall a b, In a acc -> In b l -> faster b a = false) -> sorted_by (fun a b => Z.ltb (took b) (took a)) (rev_append l acc)).
    { induction l as [|x l IH]; intros acc Hl Ha Hal; cbn [rev_append]; auto. inversion Hl as [|? ? L1 L2]; subst.
      apply IH; auto.
      - constructor; auto. apply Forall_forall. intros a Ha'. specialize (Hal a x Ha' (or_introl eq_refl)).
        unfold faster, duration in Hal. exact Hal.
      - intros a b [<-|Ha'] Hb; [|apply Hal; [auto|now right]]. rewrite Forall_forall in L1. auto. }
    rewrite rev_alt. apply G; auto; [constructor|]. intros a b [].
  - intros p o Hp Ho. apply in_rev in Hp. specialize (HD p o Hp Ho). unfold faster in HD. apply Z.ltb_ge in HD. exact HD.
Qed.
Example slow_run : option_map (map took) (match pick_slow 2 [plain 5 10 []; plain 0 30 []; plain 7 8 []; plain 0 20 []] with Ok l => Some l | _ => None end)
                   = Some [30; 20]%Z.
Proof. reflexivity. Qed.

(** ** C43 *)
Theorem same_service_count : forall ord t, any_order ord ->
    (exists svc, accesses svc t = max_same_service ord t) /\ (forall svc, (accesses svc t <= max_same_service ord t)%Z).
Proof. intros ord t H. destruct (max_same_service_spec ord t H) as (H1 & H2 & _). auto. Qed.
Theorem same_service_traces : forall ord threshold traces, any_order ord ->
    sublist_where (fun t => exists svc, (threshold < accesses svc t)%Z) traces (pick_same_service ord threshold traces).
Proof.
  intros ord threshold traces H. unfold pick_same_service. apply filter_sublist. intros t.
  destruct (max_same_service_spec ord t H) as ((svc & H1) & H2 & _). rewrite Z.ltb_lt. split.
  - intros K. exists svc. lia.
  - intros (s & K). specialize (H2 s). lia.
Qed.
Example same_service_run : let t := two_services in
    accesses (lit "db") t = 2%Z /\ max_same_service (@rev _) t = 2%Z /\
    pick_same_service (@rev _) 1 [plain 0 1 []; t; plain 0 1 [plain 0 1 []]] = [t; plain 0 1 [plain 0 1 []]].
Proof. split; [reflexivity|]. split; [reflexivity|]. reflexivity. Qed.

(** ** C44 *)
(** The seconds and nanoseconds of the filter make up the duration and have its sign. *)
Theorem duration_filter_exact : forall d, (- 2 ^ 63 <= d < 2 ^ 63)%Z ->
    let '(secs, nanos) := to_proto_duration d in
    (secs * 1000000000 + nanos = d /\ - 999999999 <= nanos <= 999999999 /\
     (0 <= d -> 0 <= secs /\ 0 <= nanos) /\ (d <= 0 -> secs <= 0 /\ nanos <= 0))%Z.
Proof.
  intros d H. rewrite to_proto_duration_spec by auto. unfold second.
  pose proof (Z.quot_rem' d 1000000000) as HQ. pose proof (Z.rem_bound_abs d 1000000000 ltac:(lia)) as HB.
  split; [lia|]. split; [lia|]. split; intros K.
  - pose proof (Z.rem_bound_pos d 1000000000 K ltac:(lia)). pose proof (Z.quot_pos d 1000000000 K ltac:(lia)). lia.
  - pose proof (Z.rem_opp_l d 1000000000 ltac:(lia)) as E1. pose proof (Z.quot_opp_l d 1000000000 ltac:(lia)) as E2.
    pose proof (Z.rem_bound_pos (- d) 1000000000 ltac:(lia) ltac:(lia)). pose proof (Z.quot_pos (- d) 1000000000 ltac:(lia) ltac:(lia)). lia.
Qed.
Theorem milliseconds_exact : forall ms, (- 9223372036854 <= ms <= 9223372036854)%Z -> millis ms = (ms * 1000000)%Z.
Proof. intros ms H. unfold millis. apply i64_small. lia. Qed.
Example duration_run : to_proto_duration (millis 1500) = (1, 500000000)%Z /\ to_proto_duration (-1500000000) = (-1, -500000000)%Z.
Proof. split; reflexivity. Qed.
(** From 9223372036855 ms on the filter is a negative duration. *)
Example milliseconds_overflow : millis 9223372036855 = (- 9223372036854551616)%Z.
Proof. reflexivity. Qed.

(** Every instant before the last whole second is in the window of a request of which
    all traces are in the result. *)
Theorem windows_cover : forall fuel cli ords srt size start end_ service dur r,
    fetch_compacted fuel cli ords srt size start end_ service dur = Some (Ok r) ->
    forall x, (start <= x)%Z -> (unix x < unix end_)%Z ->
    exists q j traces cs, cli q = Ok traces /\ q_service q = service /\ q_num q = size /\ q_duration q = to_proto_duration dur /\
      (q_min q * 1000000000 <= x < q_max q * 1000000000)%Z /\ find_compacted (ords j) srt 0 traces = Ok cs /\ incl cs r.
Proof.
  intros fuel cli ords srt size start end_ service dur r H x Hx Hxe. unfold fetch_compacted in H.
  destruct (generate_time_ranges fuel start end_ half_hour) as [times|] eqn:ET; [|discriminate]. cbn [option_map] in H.
  injection H as H. destruct (fetch_windows_Ok _ _ _ _ _ _ _ _ _ H) as (parts & -> & HL & HN).
  destruct (time_ranges_tile start end_ half_hour ltac:(unfold half_hour; lia)) as (fuel' & l & E1 & E2 & E3 & E4).
  assert (l = times).
  { pose proof (ranges_more_fuel _ (Nat.max fuel fuel') _ _ _ _ ET ltac:(lia)) as K1.
    specialize (E2 (Nat.max fuel fuel') ltac:(lia)). congruence. }
  subst l. destruct (unix_spec x) as [X1 X2]. destruct (unix_spec end_) as [Y1 Y2].
  (* the window by whole seconds: shift x to the fraction of start *)
  set (f := (start - unix start * second)%Z). assert (Hf : (0 <= f < second)%Z) by (destruct (unix_spec start); unfold f; lia).
  set (y := (unix x * second + f)%Z).
  assert (Hy : (start <= y)%Z) by (unfold y, f; pose proof (unix_le _ _ Hx); unfold second in *; nia).
  assert (HF : exists k t, nth_error times k = Some t /\ (t <= y < t + half_hour)%Z).
  { destruct (Z.lt_ge_cases y end_) as [K|K].
    - destruct (E4 y ltac:(lia)) as (k & (t & T1 & T2) & _). exists k, t. auto.
    - unfold y, second in *. nia. }
  destruct HF as (k & t & T1 & T2).
  assert (HUt : exists i, t = (start + i * half_hour)%Z) by (apply E3 in T1; destruct T1 as [-> _]; eauto).
  destruct HUt as (i & Ht).
  assert (HP : exists part, nth_error parts k = Some part).
  { destruct (nth_error parts k) eqn:EP; eauto. apply nth_error_None in EP. assert (k < length times) by (apply nth_error_Some; congruence). lia. }
  destruct HP as (part & HP). destruct (HN k t part T1 HP) as (traces & C1 & C2).
  exists (query_at size service dur t), k, traces, part. split; [exact C1|]. do 3 (split; [reflexivity|]). split.
  - unfold query_at. cbn [q_min q_max].
    assert (U1 : unix t = (unix start + i * 1800)%Z).
    { rewrite Ht. replace (start + i * half_hour)%Z with (start + (i * 1800) * second)%Z by (unfold half_hour, second; lia).
      apply unix_shift. }
    assert (U2 : unix (t + half_hour) = (unix start + i * 1800 + 1800)%Z).
    { replace (t + half_hour)%Z with (t + 1800 * second)%Z by (unfold half_hour, second; lia). rewrite unix_shift. lia. }
    rewrite U1, U2. assert (Et : t = ((unix start + i * 1800) * second + f)%Z) by (rewrite Ht; unfold f, half_hour, second; lia).
    rewrite Et in T2. unfold y, second, half_hour in *. lia.
  - split; [exact C2|]. intros z Hz. apply in_concat. exists part. split; auto. eapply nth_error_In; eauto.
Qed.
(** The rest of the last second is in no window when the time span is a multiple of
    half an hour, as it is by default. *)
Theorem last_fraction_missed : forall start n fuel times x, (0 < n)%Z ->
    generate_time_ranges fuel start (start + n * half_hour) half_hour = Some times ->
    (unix (start + n * half_hour) * 1000000000 < x < start + n * half_hour)%Z ->
    forall size service dur t, In t times -> let q := query_at size service dur t in
      ~ (q_min q * 1000000000 <= x <= q_max q * 1000000000)%Z.
Proof.
  intros start n fuel times x Hn ET Hx size service dur t Ht q [Q1 Q2]. unfold q, query_at in Q1, Q2. cbn [q_min q_max] in Q1, Q2.
  destruct (time_ranges_tile start (start + n * half_hour) half_hour ltac:(unfold half_hour; lia)) as (fuel' & l & E1 & E2 & E3 & E4).
  assert (l = times).
  { pose proof (ranges_more_fuel _ (Nat.max fuel fuel') _ _ _ _ ET ltac:(lia)) as K1.
    specialize (E2 (Nat.max fuel fuel') ltac:(lia)). congruence. }
  subst l. apply In_nth_error in Ht. destruct Ht as (k & Ht). apply E3 in Ht. destruct Ht as [Et Hlt].
  assert (Hle : (t + half_hour <= start + n * half_hour)%Z) by (rewrite Et in *; unfold half_hour in *; lia).
  pose proof (unix_le _ _ Hle). lia.
Qed.
Example missed_run : exists fuel times, generate_time_ranges fuel 500 (500 + 48 * half_hour) half_hour = Some times /\
    (unix (500 + 48 * half_hour) * 1000000000 < 86400000000100 < 500 + 48 * half_hour)%Z /\ length times = 48.
Proof. exists 48, (map (fun k => 500 + Z.of_nat k * half_hour)%Z (seq 0 48)). split; [vm_compute; reflexivity|]. split; [vm_compute; auto|reflexivity]. Qed.
(** The requests end, and fail only as the server does. *)
Theorem fetch_ends : forall cli ords srt size start end_ service dur, exists fuel, forall fuel', fuel <= fuel' ->
    fetch_compacted fuel' cli ords srt size start end_ service dur = fetch_compacted fuel cli ords srt size start end_ service dur /\
    fetch_compacted fuel cli ords srt size start end_ service dur <> None.
Proof.
  intros cli ords srt size start end_ service dur.
  destruct (time_ranges_tile start end_ half_hour ltac:(unfold half_hour; lia)) as (fuel & l & E1 & E2 & _).
  exists fuel. intros fuel' H. unfold fetch_compacted. rewrite (E2 fuel' H), E1. split; [reflexivity|discriminate].
Qed.
Theorem fetch_errors : forall fuel cli ords srt size start end_ service dur, (forall i k, any_order (ords i k)) -> is_sort start_less srt ->
    (forall q traces, cli q = Ok traces -> Forall complete_input traces) ->
    match fetch_compacted fuel cli ords srt size start end_ service dur with
    | Some (Err e) => exists q, cli q = Err e
    | Some Panic => exists q, cli q = Panic
    | _ => True
    end.
Proof.
  intros fuel cli ords srt size start end_ service dur Ho Hs Hc. unfold fetch_compacted.
  destruct (generate_time_ranges fuel start end_ half_hour) as [times|]; cbn [option_map]; auto.
  pose proof (fetch_windows_Err cli ords srt size service dur times 0 Ho Hs Hc) as H.
  destruct (fetch_windows cli ords srt size service dur 0 times); auto.
  - destruct H as (a & st & b & _ & K & _). eauto.
  - destruct H as (st & _ & K). eauto.
Qed.
(** By default the 24 hours before now; never beyond now nor more than 24 hours. *)
Theorem dig_times : forall now given, let '(s, e) := dig_span now given in
    (e <= now /\ e <= s + day)%Z /\ (e = now \/ e = s + day)%Z /\
    match given with Some g => s = g | None => s = (now - day)%Z /\ e = now end.
Proof.
  intros now given. unfold dig_span. cbv zeta. destruct given as [g|].
  - destruct (Z.ltb_spec now (g + day)); repeat split; try lia; auto.
  - destruct (Z.ltb_spec now (now - day + day)); repeat split; try lia; auto.
Qed.
Example dig_times_run : dig_span 100 (Some 5%Z) = (5, 100)%Z /\ dig_span (2 * day) (Some 5%Z) = (5, 5 + day)%Z.
Proof. split; reflexivity. Qed.

(** ** C70 *)
(** The page shows the tree: same shape, names, services; ids can be told apart;
    milliseconds rounded down. *)
Theorem view_mirrors_trace : forall t up k, preorder (to_view t) = map (fun n => span_view (n_span n)) (preorder t) /\
    tree_parents up k (to_view t) = tree_parents up k t.
Proof.
  intros t. assert (HS : forall t, tree_size (to_view t) = tree_size t).
  { apply tree_ind'. intros n cs IH. cbn [to_view tree_size]. f_equal. induction IH as [|c cs Hc _ IHl]; simpl; congruence. }
  apply (tree_ind' (fun t => forall up k, preorder (to_view t) = map (fun n => span_view (n_span n)) (preorder t) /\
    tree_parents up k (to_view t) = tree_parents up k t)).
  intros n cs IH up k. split.
  - cbn [to_view preorder map]. f_equal. induction IH as [|c cs Hc _ IHl]; simpl; auto. rewrite map_app, IHl.
    now destruct (Hc None 0) as [-> _].
  - cbn [to_view tree_parents]. f_equal. generalize (S k). induction IH as [|c cs Hc _ IHl]; intros j; simpl; auto.
    destruct (Hc (Some k) j) as [_ ->]. now rewrite HS, IHl.
Qed.
Theorem view_fields : forall s, v_name (span_view s) = s_name s /\ v_service (span_view s) = s_service s /\
    (v_start (span_view s) * 1000000 <= s_start s < (v_start (span_view s) + 1) * 1000000)%Z /\
    (v_end (span_view s) * 1000000 <= s_end s < (v_end (span_view s) + 1) * 1000000)%Z.
Proof.
  intros s. split; [reflexivity|]. split; [reflexivity|]. unfold span_view. cbn [v_start v_end].
  rewrite !Z.div_div by lia. change (1000 * 1000)%Z with 1000000%Z.
  pose proof (Z.div_mod (s_start s) 1000000 ltac:(lia)). pose proof (Z.mod_pos_bound (s_start s) 1000000 ltac:(lia)).
  pose proof (Z.div_mod (s_end s) 1000000 ltac:(lia)). pose proof (Z.mod_pos_bound (s_end s) 1000000 ltac:(lia)). lia.
Qed.
Theorem view_ids_distinct : forall a b, Forall (fun x => (x < 256)%N) (s_span_id a) -> Forall (fun x => (x < 256)%N) (s_span_id b) ->
    v_id (span_view a) = v_id (span_view b) -> s_span_id a = s_span_id b.
Proof. intros a b Ha Hb H. apply hex_inj; auto. Qed.
Example hex_run : hex [0; 7; 171; 255]%N = lit "0007abff".
Proof. reflexivity. Qed.
Example view_ids_run : v_id (span_view (n_span (t_val (plain 0 1 [])))) = [].
Proof. reflexivity. Qed.
Theorem compact_view : forall ordc ordt srt t, any_order ordc -> any_order ordt ->
    let v := to_compact_view ordc ordt srt t in
    vt_id v = hex (s_trace_id (span_at t)) /\ vt_root v = to_view t /\
    (exists svc, accesses svc t = vt_count v) /\ (forall svc, (accesses svc t <= vt_count v)%Z) /\
    (forall svc, has_service svc (spans_of t) ->
      (service_total (consumed_time srt) svc (spans_of t) <= service_total (consumed_time srt) (vt_service v) (spans_of t))%Z).
Proof.
  intros ordc ordt srt t Hc Ht v. split; [reflexivity|]. split; [reflexivity|].
  destruct (same_service_count ordc t Hc) as [S1 S2]. split; [exact S1|]. split; [exact S2|].
  intros svc H. destruct (most_consuming_service srt ordt t Ht) as [[E1 E2]|(E1 & E2 & E3)].
  - rewrite (E2 svc H). unfold service_total. apply Z.mod_pos_bound. lia.
  - now apply E3.
Qed.
Example compact_view_run : let v := to_compact_view (fun l => l) (@rev _) tsort two_services in
    vt_count v = 2%Z /\ vt_service v = lit "db" /\ length (preorder (vt_root v)) = 4.
Proof. repeat split; reflexivity. Qed.

(** ** C71: dig *)
Theorem dig_result : forall fuel cli ords srt ordc count now given service ms threshold slow same,
    (forall i k, any_order (ords i k)) -> is_sort start_less srt -> any_order ordc ->
    dig fuel cli ords srt ordc count now given service ms threshold = Some (Ok (slow, same)) ->
    exists traces others,
      fetch_compacted fuel cli ords srt (i32 count) (fst (dig_span now given)) (snd (dig_span now given)) service (millis ms) = Some (Ok traces) /\
      Permutation (slow ++ others) traces /\ length slow = Nat.min 100 (length traces) /\
      sorted_by (fun a b => Z.ltb (took b) (took a)) slow /\ (forall p o, In p slow -> In o others -> (took o <= took p)%Z) /\
      sublist_where (fun t => exists svc, (threshold < accesses svc t)%Z) traces same.
Proof.
  intros fuel cli ords srt ordc count now given service ms threshold slow same Ho Hs Hc H. unfold dig in H.
  destruct (dig_span now given) as [s e]. cbn [fst snd].
  destruct (fetch_compacted fuel cli ords srt (i32 count) s e service (millis ms)) as [[traces|er|]|]; cbn [option_map obind] in H; try discriminate.
  destruct (slow_traces_are_slowest 100 traces) as (picked & others & E & P & L & S & D). rewrite E in H. cbn [obind] in H.
  injection H as <- <-. exists traces, others. split; [reflexivity|]. split; [exact P|]. split; [lia|]. split; [exact S|]. split; [exact D|].
  now apply same_service_traces.
Qed.
Example dig_run : exists slow same, dig 48 (fun q => if Z.eqb (q_min q) 0 then Ok [example_input] else Ok []) (fun _ _ l => l) ssort (fun l => l)
      500 100 (Some 0%Z) (lit "web") 1000 1 = Some (Ok (slow, same)) /\ map took slow = [100; 10]%Z /\ length same = 0.
Proof. eexists _, _. split; [vm_compute; reflexivity|]. split; reflexivity. Qed.

Print Assumptions spans_form_forest.
Print Assumptions cycles_dropped.
Print Assumptions unset_attribute_panics.
Print Assumptions compaction_keeps_boundaries.
Print Assumptions compaction_determined.
Print Assumptions traces_compacted.
Print Assumptions consumed_is_uncovered.
Print Assumptions consumed_formula.
Print Assumptions most_consuming_service.
Print Assumptions most_consuming_tie.
Print Assumptions slow_traces_are_slowest.
Print Assumptions same_service_traces.
Print Assumptions duration_filter_exact.
Print Assumptions windows_cover.
Print Assumptions last_fraction_missed.
Print Assumptions fetch_errors.
Print Assumptions view_mirrors_trace.
Print Assumptions compact_view.
Print Assumptions dig_result.
Print Assumptions complete_spans_convert.
Print Assumptions uncovered_count.
Print Assumptions outliving_child_refuted.
Print Assumptions outliving_child_wraps.
Print Assumptions spans_are_preorder.
Print Assumptions same_service_count.
Print Assumptions milliseconds_exact.
Print Assumptions fetch_ends.
Print Assumptions view_fields.
Print Assumptions view_ids_distinct.
Print Assumptions dig_times.
