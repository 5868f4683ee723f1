(** Spans and their trees, without reference to how they are computed. *)
From Coq Require Import String List NArith ZArith Bool Lia Arith Permutation Sorted.
From Verif Require Import Base IndexBuild ExplainTree ExplainSpec Otel.
Import ListNotations.
Local Open Scope nat_scope.

(** The elements with [P], in order. *)
Inductive sublist_where {A} (P : A -> Prop) : list A -> list A -> Prop :=
| sw_nil : sublist_where P [] []
| sw_take : forall x l l', P x -> sublist_where P l l' -> sublist_where P (x :: l) (x :: l')
| sw_skip : forall x l l', ~ P x -> sublist_where P l l' -> sublist_where P (x :: l) l'.

(** The order in which a run visits a map: any. *)
Definition any_order {A} (o : list A -> list A) : Prop := forall l, Permutation (o l) l.

(** ** The input *)

(** All spans in order, each with its resource. *)
Definition all_spans (input : list resource_spans) : list (raw_span * resource_spans) :=
  flat_map (fun rs => map (fun s => (s, rs)) (concat (rs_spans rs))) input.

(** No value is missing. *)
Fixpoint complete (v : any_value) : Prop :=
  match v with
  | AUnset => False
  | AArray l => (fix go (l : list any_value) := match l with [] => True | x :: l' => complete x /\ go l' end) l
  | AKv l => (fix go (l : list (gostring * any_value)) :=
                match l with [] => True | x :: l' => complete (snd x) /\ go l' end) l
  | _ => True
  end.
Definition complete_input (input : list resource_spans) : Prop :=
  Forall (fun x => Forall (fun a => complete (snd a)) (r_attrs (fst x))) (all_spans input).

(** [s] of resource [rs] is the span that counts for [id]: the last one with it. *)
Definition counts_for (input : list resource_spans) (id : bytes) (s : raw_span) (rs : resource_spans) : Prop :=
  exists before after, all_spans input = before ++ (s, rs) :: after /\ r_span_id s = id /\
    Forall (fun x => r_span_id (fst x) <> id) after.
Definition known (input : list resource_spans) (id : bytes) : Prop := exists s rs, counts_for input id s rs.
Definition no_id (id : bytes) : Prop := Forall (eq 0%N) id.
(** A span without parent, or with a parent that is not there. *)
Definition top_span (input : list resource_spans) (id : bytes) : Prop :=
  exists s rs, counts_for input id s rs /\ (no_id (r_parent_id s) \/ ~ known input (r_parent_id s)).
Definition child_of (input : list resource_spans) (id pid : bytes) : Prop :=
  exists s rs, counts_for input id s rs /\ r_parent_id s = pid /\ ~ no_id pid /\ known input pid.
(** Going from parent to parent ends at a span without one. *)
Inductive rooted (input : list resource_spans) : bytes -> Prop :=
| rooted_top : forall id, top_span input id -> rooted input id
| rooted_child : forall id pid, child_of input id pid -> rooted input pid -> rooted input id.

(** ** What a span shows *)
Definition service_is (rs : resource_spans) (name : gostring) : Prop :=
  match rs_attrs rs with
  | None => name = []
  | Some l =>
      (exists a v b, l = a ++ (lit "service.name", v) :: b /\ Forall (fun x => fst x <> lit "service.name") a /\
         name = match v with AString s => s | _ => [] end) \/
      (Forall (fun x => fst x <> lit "service.name") l /\ name = [])
  end.
Definition shows (s : raw_span) (rs : resource_spans) (sp : span) : Prop :=
  s_name sp = r_name s /\ s_trace_id sp = r_trace_id s /\ s_span_id sp = r_span_id s /\
  s_start sp = r_start s /\ s_end sp = r_end s /\ service_is rs (s_service sp) /\
  forall k v, mget (s_attrs sp) k = Some v <->
    exists a b, r_attrs s = a ++ (k, v) :: b /\ Forall (fun x => fst x <> k) b.

(** ** Trees of spans *)
Definition id_of (t : tree node) : bytes := s_span_id (n_span (t_val t)).
Definition ids (t : tree node) : list bytes := map (fun n => s_span_id (n_span n)) (preorder t).

(** Every span is below its parent, next to all others of the same parent, by start. *)
Inductive span_tree (input : list resource_spans) : tree node -> Prop :=
| span_tree_node : forall n cs s rs,
    counts_for input (s_span_id (n_span n)) s rs -> shows s rs (n_span n) ->
    NoDup (map id_of cs) ->
    (forall c, In c (map id_of cs) <-> child_of input c (s_span_id (n_span n))) ->
    StronglySorted (fun a b => (s_start (n_span (t_val a)) <= s_start (n_span (t_val b)))%Z) cs ->
    Forall (fun c => n_parent (t_val c) = Some (n_span n)) cs ->
    Forall (span_tree input) cs ->
    span_tree input (Node n cs).

(** ** Compaction *)

(** Every node in pre-order, with the way from it to the root. *)
Fixpoint paths {A} (above : list (tree A)) (t : tree A) : list (list (tree A)) :=
  match t with Node _ cs => (t :: above) :: flat_map (paths (t :: above)) cs end.
Definition span_at (t : tree node) : span := n_span (t_val t).
Definition has_db (t : tree node) : Prop := exists v, mget (s_attrs (span_at t)) (lit "db.system") = Some v.
Definition db_leaf (t : tree node) : Prop := t_children t = [] /\ has_db t.
(** The root, a span of another service than the one above it, a database call. *)
Definition stays (way : list (tree node)) : Prop :=
  match way with
  | [] => False
  | [_] => True
  | t :: u :: _ => s_service (span_at t) <> s_service (span_at u) \/ db_leaf t
  end.
(** A database call is shown with the name of the database system. *)
Definition shown_as (t : tree node) (s : span) : Prop :=
  let o := span_at t in
  s_name s = s_name o /\ s_trace_id s = s_trace_id o /\ s_span_id s = s_span_id o /\
  s_start s = s_start o /\ s_end s = s_end o /\ s_attrs s = s_attrs o /\
  (db_leaf t -> exists db, s_service s = db ++ lit " (" ++ s_service o ++ lit ")" /\
     (db = [] /\ (forall x, mget (s_attrs o) (lit "db.system") <> Some (AString x)) \/
      mget (s_attrs o) (lit "db.system") = Some (AString db))) /\
  (~ db_leaf t -> s_service s = s_service o).
(** [short] is the way with only the nodes that stay. *)
Inductive shortened : list (tree node) -> list span -> Prop :=
| short_nil : shortened [] []
| short_keep : forall t way s short, stays (t :: way) -> shown_as t s -> shortened way short ->
    shortened (t :: way) (s :: short)
| short_drop : forall t way short, ~ stays (t :: way) -> shortened way short -> shortened (t :: way) short.
(** The nodes that stay, and no others, in the same order, each below the nodes of
    its way that stay. *)
Definition compacted_of (t t' : tree node) : Prop :=
  exists kept, sublist_where stays (paths [] t) kept /\
    Forall2 (fun way way' => shortened way (map span_at way')) kept (paths [] t').
(** The parent links of a tree fit. *)
Inductive linked : option span -> tree node -> Prop :=
| linked_node : forall up n cs, n_parent n = up -> Forall (linked (Some (n_span n))) cs -> linked up (Node n cs).
Definition span_key (n : node) : bytes * bytes := (s_trace_id (n_span n), s_span_id (n_span n)).
Definition distinct_spans (t : tree node) : Prop := NoDup (map span_key (preorder t)).

(** ** Times *)
Definition covers (iv : Z * Z) (x : Z) : Prop := (fst iv <= x < snd iv)%Z.
(** [l] lists the nanoseconds from [lo] to [hi] in no interval, each once. *)
Definition uncovered (ivs : list (Z * Z)) (lo hi : Z) (l : list Z) : Prop :=
  NoDup l /\ forall x, In x l <-> (lo <= x < hi)%Z /\ Forall (fun iv => ~ covers iv x) ivs.
Definition child_times (t : tree node) : list (Z * Z) :=
  map (fun c => (s_start (span_at c), s_end (span_at c))) (t_children t).
Definition forwards (iv : Z * Z) : Prop := (fst iv <= snd iv)%Z.
Definition latest (start : Z) (ivs : list (Z * Z)) : Z := fold_right (fun iv m => Z.max (snd iv) m) start ivs.

(** The sum of [f] over the spans of a service, as a uint64. *)
Definition service_total (f : tree node -> Z) (service : gostring) (l : list (tree node)) : Z :=
  (fold_right (fun t n => (if seqb (s_service (span_at t)) service then f t else 0) + n) 0 l mod 2 ^ 64)%Z.
Definition has_service (service : gostring) (l : list (tree node)) : Prop :=
  exists t, In t l /\ s_service (span_at t) = service.
(** How many spans of a trace a service has. *)
Definition accesses (service : gostring) (t : tree node) : Z :=
  Z.of_nat (length (filter (fun n => seqb (s_service (n_span n)) service) (preorder t))).
(** The length of a trace, as a uint64. *)
Definition took (t : tree node) : Z := ((s_end (span_at t) - s_start (span_at t)) mod 2 ^ 64)%Z.
