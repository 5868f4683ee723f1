(** The sequence diagrams of the traces in the report. *)
From Coq Require Import String List NArith ZArith Bool Lia Arith.
From Verif Require Import Base Dec ExplainTree Otel.
Import ListNotations.

(** client/src/models/trace_diagram/ITraceNode.ts, TraceNode.ts, TraceRepeatNode.ts:5-12;
    a repeat node never gets children *)
Inductive dnode := DNode (service : gostring) (children : list dnode) | DRepeat (k : nat) (to_service : gostring).
(** TraceNode.ts, TraceRepeatNode.ts:5-12 *)
Definition d_service (n : dnode) : gostring := match n with DNode s _ => s | DRepeat _ _ => lit "repeat" end.
(** ITraceNode.ts:1-12 *)
Definition d_children (n : dnode) : list dnode := match n with DNode _ cs => cs | DRepeat _ _ => [] end.
(** ITraceNode.ts:10-12 hasChild *)
Definition has_child (n : dnode) : bool := match d_children n with [] => false | _ => true end.

(** client/src/models/OtelTraceSpan.ts:76-78 isLast *)
Definition is_last (t : tree vm_span) : bool := match t with Node _ [] => true | _ => false end.
(** OtelTraceSpan.ts:15-49: serviceName *)
Definition svc (t : tree vm_span) : gostring := v_service (t_val t).
(** OtelTraceSpan.ts:32-49 countRepeatedChildService, without the child itself, over the
    children after it *)
Fixpoint count_repeated (s : gostring) (l : list (tree vm_span)) : nat :=
  match l with
  | [] => 0
  | c :: l' => if is_last c then if seqb s (svc c) then S (count_repeated s l') else 0 else 0
  end.
(** OtelTraceSpan.ts:51-70 createTraceNodes, for a span without children *)
Definition create_nodes (repeat_count : nat) (s : gostring) : list dnode :=
  map (fun j => if Nat.ltb j 3 then DNode s []
                else if Nat.eqb (j + 1) repeat_count then DNode s []
                else DRepeat (repeat_count - j) s) (seq 0 (Nat.min 4 repeat_count)).
(** OtelTraceSpan.ts:15-30 toTraceNode; [skip] is how far the index was moved on *)
Fixpoint to_trace_node (t : tree vm_span) : dnode :=
  match t with
  | Node v cs =>
      DNode (v_service v)
        ((fix go (skip : nat) (l : list (tree vm_span)) {struct l} : list dnode :=
            match l with
            | [] => []
            | c :: l' =>
                match skip with
                | S k => go k l'
                | 0 =>
                    if is_last c then
                      let n := S (count_repeated (svc c) l') in
                      create_nodes n (svc c) ++ go (n - 1) l'
                    else to_trace_node c :: go 0 l'
                end
            end) 0 cs)
  end.

(** TraceTree.ts:12-50 *)
Definition lf : gostring := [10%N].
(** TraceNode.ts:8-14, TraceRepeatNode.ts:14-31 *)
Definition start_arrow (from : gostring) (n : dnode) : gostring :=
  match n with
  | DNode s _ => from ++ lit "->>" ++ s ++ lit ": " ++ s
  | DRepeat k to =>
      join lf (map (fun j => if Nat.eqb j 0
                             then from ++ lit "->>" ++ to ++ lit ": More " ++ dec_of_N (N.of_nat k) ++ lit " times..."
                             else from ++ lit "->>" ++ to ++ lit ": ") (seq 0 (Nat.min k 3)))
  end.
(** TraceNode.ts:12-14, TraceRepeatNode.ts:14-31 *)
Definition end_arrow (from : gostring) (n : dnode) : gostring :=
  match n with DNode s _ => s ++ lit "->>" ++ from ++ lit ": " ++ from | DRepeat _ _ => [] end.
(** client/src/models/trace_diagram/TraceTree.ts:27-50 toMermaidDiagramRecursive *)
Fixpoint mermaid_rec (n : dnode) : gostring :=
  match n with
  | DRepeat _ _ => []
  | DNode s cs =>
      concat (map (fun c =>
        start_arrow s c ++ lf ++
        (if has_child c then lit "activate " ++ d_service c ++ lf else []) ++
        mermaid_rec c ++
        (if has_child c then end_arrow s c ++ lf ++ lit "deactivate " ++ d_service c ++ lf else [])) cs)
  end.
(** TraceTree.ts:20-25 toRootOnlyMermaidDiagram *)
Definition mermaid_root_only (s : gostring) : gostring :=
  lf ++ lit "      sequenceDiagram" ++ lf ++ lit "      " ++ s ++ lit "->>" ++ s ++ lit ":  " ++ lf ++ lit "    ".
(** TraceTree.ts:12-18 toMermaidDiagram *)
Definition to_mermaid (root : dnode) : gostring :=
  match d_children root with
  | [] => mermaid_root_only (d_service root)
  | _ => lit "sequenceDiagram" ++ [13%N; 10%N] ++ mermaid_rec root
  end.

(** client/src/models/OtelCompactedTrace.ts:13-23 toTraceTree *)
Record trace_tree := { tt_id : gostring; tt_duration : Z; tt_count : Z; tt_service : gostring; tt_root : dnode }.
(** OtelCompactedTrace.ts:13-23 *)
Definition to_trace_tree (v : vm_trace) : trace_tree :=
  {| tt_id := vt_id v; tt_duration := (v_end (t_val (vt_root v)) - v_start (t_val (vt_root v)))%Z;
     tt_count := vt_count v; tt_service := vt_service v; tt_root := to_trace_node (vt_root v) |}.
