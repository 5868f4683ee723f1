(** Model of otel/jaeger/v1_converter.go, otel/jaeger/trace_picker.go and
    otel/omodel/{span,trace_tree,trace_compacter,same_resource_count_visitor,
    compact_info_collect_visitor,any_value}.go. *)
From Coq Require Import String List NArith ZArith Bool Lia Arith.
From Verif Require Import Base IndexBuild ExplainTree LimitedHeap Lib.
Import ListNotations.
Local Open Scope nat_scope.

(** Byte slices (ids) are lists of bytes; [string(b)] as a map key and [bytes.Equal]
    compare them. *)
Notation bytes := (list N).

(** uint64 arithmetic *)
Definition u64 (z : Z) : Z := (z mod 2 ^ 64)%Z.

(** v1.AnyValue: the cases of the Value field; [AUnset] is a missing value. *)
Inductive any_value :=
| AString (s : gostring) | ABool (b : bool) | AInt (z : Z) | ADouble (bits : Z)
| AArray (l : list any_value) | AKv (l : list (gostring * any_value)) | ABytes (b : bytes)
| AUnset.

(** v1_converter.go:87-115 (toAnyValueData): copies the value; a missing value
    panics, also inside arrays and maps.  The copy of a map keeps the last value of
    a key; only string values at the top are ever read, so it is left as a list. *)
Fixpoint to_any_value (v : any_value) : outcome any_value :=
  match v with
  | AUnset => Panic
  | AArray l =>
      do l' <- (fix go (l : list any_value) : outcome (list any_value) :=
        match l with
        | [] => Ok []
        | x :: l' => do x' <- to_any_value x; do r <- go l'; Ok (x' :: r)
        end) l;
      Ok (AArray l')
  | AKv l =>
      do l' <- (fix go (l : list (gostring * any_value)) : outcome (list (gostring * any_value)) :=
        match l with
        | [] => Ok []
        | (k, x) :: l' => do x' <- to_any_value x; do r <- go l'; Ok ((k, x') :: r)
        end) l;
      Ok (AKv l')
  | _ => Ok v
  end.

(** any_value.go:31-36 and the generated getter of v1.AnyValue *)
Definition string_value (v : any_value) : gostring :=
  match v with AString s => s | _ => [] end.

(** The fields of v1Trace.Span that are read *)
Record raw_span := {
  r_name : gostring; r_trace_id : bytes; r_span_id : bytes; r_parent_id : bytes;
  r_start : Z; r_end : Z; r_attrs : list (gostring * any_value) }.
(** v1Trace.ResourceSpans: the attributes of the resource ([None]: no resource),
    the spans of each instrumentation library *)
Record resource_spans := { rs_attrs : option (list (gostring * any_value)); rs_spans : list (list raw_span) }.

(** omodel/span.go:13-23 without the links Parent and Children *)
Record span := {
  s_name : gostring; s_trace_id : bytes; s_span_id : bytes;
  s_start : Z; s_end : Z; s_attrs : smap any_value; s_service : gostring }.

(** v1_converter.go:60: semconv.ServiceNameKey *)
Definition service_name_key : gostring := lit "service.name".
(** span.go:36: semconv.DBSystemKey *)
Definition db_system_key : gostring := lit "db.system".

(** v1_converter.go:57-65 *)
Fixpoint first_service (l : list (gostring * any_value)) : gostring :=
  match l with
  | [] => []
  | (k, v) :: l' => if seqb k service_name_key then string_value v else first_service l'
  end.
(** v1_converter.go:57-65 *)
Definition service_of (rs : resource_spans) : gostring :=
  match rs_attrs rs with None => [] | Some l => first_service l end.

(** v1_converter.go:67-70 *)
Fixpoint to_attrs (l : list (gostring * any_value)) (m : smap any_value) : outcome (smap any_value) :=
  match l with
  | [] => Ok m
  | (k, v) :: l' => do v' <- to_any_value v; to_attrs l' (mset m k v')
  end.

(** v1_converter.go:56-81 *)
Definition to_omodel_span (s : raw_span) (rs : resource_spans) : outcome span :=
  do attrs <- to_attrs (r_attrs s) [];
  Ok {| s_name := r_name s; s_trace_id := r_trace_id s; s_span_id := r_span_id s;
        s_start := r_start s; s_end := r_end s; s_attrs := attrs; s_service := service_of rs |}.

(** v1_converter.go:15-18 with the links of the span: the keys of the map stand for
    the pointers (each key has one holder). *)
Record holder := { h_orig : raw_span; h_span : span; h_children : list bytes; h_parent : option bytes }.

(** v1_converter.go:26-33 *)
Fixpoint collect_spans (rs : resource_spans) (l : list raw_span) (m : smap holder) : outcome (smap holder) :=
  match l with
  | [] => Ok m
  | s :: l' =>
      do sp <- to_omodel_span s rs;
      collect_spans rs l' (mset m (r_span_id s) {| h_orig := s; h_span := sp; h_children := []; h_parent := None |})
  end.
(** v1_converter.go:28-32 *)
Fixpoint collect_libs (rs : resource_spans) (l : list (list raw_span)) (m : smap holder) : outcome (smap holder) :=
  match l with
  | [] => Ok m
  | spans :: l' => do m' <- collect_spans rs spans m; collect_libs rs l' m'
  end.
(** v1_converter.go:26-33 *)
Fixpoint collect_resources (l : list resource_spans) (m : smap holder) : outcome (smap holder) :=
  match l with
  | [] => Ok m
  | rs :: l' => do m' <- collect_libs rs (rs_spans rs) m; collect_resources l' m'
  end.

(** v1_converter.go:117-124 *)
Definition is_root_span (s : raw_span) : bool := forallb (N.eqb 0) (r_parent_id s).

(** writing through the pointer of a map's entry: v1_converter.go:43-44 *)
Fixpoint mupdate {A} (m : smap A) (k : gostring) (f : A -> A) : smap A :=
  match m with
  | [] => []
  | (k', v) :: m' => if seqb k k' then (k', f v) :: m' else (k', v) :: mupdate m' k f
  end.
(** v1_converter.go:43 *)
Definition append_child (id : bytes) (h : holder) : holder :=
  {| h_orig := h_orig h; h_span := h_span h; h_children := h_children h ++ [id]; h_parent := h_parent h |}.
(** v1_converter.go:44 *)
Definition set_parent (pid : bytes) (h : holder) : holder :=
  {| h_orig := h_orig h; h_span := h_span h; h_children := h_children h; h_parent := Some pid |}.

(** v1_converter.go:35-48: the loop over the holders in the order of this run *)
Fixpoint link_loop (ids : list bytes) (m : smap holder) (roots : list bytes) : smap holder * list bytes :=
  match ids with
  | [] => (m, roots)
  | id :: ids' =>
      match mget m id with
      | None => link_loop ids' m roots
      | Some h =>
          if is_root_span (h_orig h) then link_loop ids' m (roots ++ [id])
          else match mget m (r_parent_id (h_orig h)) with
               | Some _ =>
                   let m' := mupdate m (r_parent_id (h_orig h)) (append_child id) in
                   link_loop ids' (mupdate m' id (set_parent (r_parent_id (h_orig h)))) roots
               | None => link_loop ids' m (roots ++ [id])
               end
      end
  end.

(** span.go:13-23: a span of a tree, its data and the data of the span its Parent points to *)
Record node := { n_span : span; n_parent : option span }.

(** span.go:26-28 *)
Definition start_less (a b : tree node) : bool :=
  Z.ltb (s_start (n_span (t_val a))) (s_start (n_span (t_val b))).

(** What following Children from a span shows, after SortChildren (span.go:25-33);
    [None] when deeper than [fuel] (an endless recursion). *)
Fixpoint read_span (srt : list (tree node) -> list (tree node)) (fuel : nat) (m : smap holder) (id : bytes)
  : option (tree node) :=
  match fuel with
  | 0 => None
  | S f =>
      match mget m id with
      | None => None
      | Some h =>
          let parent := match h_parent h with
                        | None => None
                        | Some p => option_map h_span (mget m p)
                        end in
          match (fix go (l : list bytes) : option (list (tree node)) :=
                   match l with
                   | [] => Some []
                   | c :: l' => match read_span srt f m c, go l' with
                                | Some t, Some ts => Some (t :: ts)
                                | _, _ => None
                                end
                   end) (h_children h) with
          | Some cs => Some (Node {| n_span := h_span h; n_parent := parent |} (srt cs))
          | None => None
          end
      end
  end.

(** the same for each of the children, span.go:25-33 *)
Fixpoint read_spans (srt : list (tree node) -> list (tree node)) (fuel : nat) (m : smap holder) (ids : list bytes)
  : outcome (list (tree node)) :=
  match ids with
  | [] => Ok []
  | id :: ids' =>
      match read_span srt fuel m id with
      | None => Panic
      | Some t => do ts <- read_spans srt fuel m ids'; Ok (t :: ts)
      end
  end.

(** v1_converter.go:25-54; [ord] is the order in which this run visits the map.
    No path of distinct spans is longer than their number. *)
Definition to_trace_trees (ord : list bytes -> list bytes) (srt : list (tree node) -> list (tree node))
  (input : list resource_spans) : outcome (list (tree node)) :=
  do m <- collect_resources input [];
  let '(m', roots) := link_loop (ord (keys m)) m [] in
  read_spans srt (length m) m' roots.

(** ** Compaction *)

(** span.go:35-41 *)
Definition db_system (s : span) : gostring :=
  match mget (s_attrs s) db_system_key with None => [] | Some v => string_value v end.
(** span.go:43-50 *)
Definition is_last_db (s : span) (children : list (tree node)) : bool :=
  match children with
  | _ :: _ => false
  | [] => match mget (s_attrs s) db_system_key with Some _ => true | None => false end
  end.
(** trace_compacter.go:44-56 *)
Definition remains (n : node) (children : list (tree node)) : bool :=
  match n_parent n with
  | None => true
  | Some p => if negb (seqb (s_service p) (s_service (n_span n))) then true
              else is_last_db (n_span n) children
  end.
(** trace_compacter.go:23-26 with span.go:52-64 *)
Definition set_service (s : span) (service : gostring) : span :=
  {| s_name := s_name s; s_trace_id := s_trace_id s; s_span_id := s_span_id s;
     s_start := s_start s; s_end := s_end s; s_attrs := s_attrs s; s_service := service |}.
(** trace_compacter.go:23-26 with span.go:52-64 *)
Definition compact_copy (n : node) (children : list (tree node)) : node :=
  let s := n_span n in
  {| n_span := if is_last_db s children
               then set_service s (db_system s ++ lit " (" ++ s_service s ++ lit ")")
               else s;
     n_parent := None |}.
(** span.go:66-68 *)
Definition is_same (a b : span) : bool :=
  (seqb (s_trace_id a) (s_trace_id b) && seqb (s_span_id a) (s_span_id b))%bool.

(** trace_compacter.go:18-34; the stack has its top first *)
Definition enter (n : node) (children : list (tree node)) (h : heap node) (st : list nat) : heap node * list nat :=
  if remains n children then
    let '(h1, p) := alloc h (compact_copy n children) in
    match st with
    | [] => (h1, [p])
    | top :: _ => (add_child h1 top p, p :: st)
    end
  else (h, st).
(** trace_compacter.go:36-42; [IsSame] of a nil span panics *)
Definition leave (n : node) (h : heap node) (st : list nat) : outcome (heap node * list nat) :=
  match st with
  | [] => Panic
  | top :: st' =>
      match heap_val h top with
      | None => Panic
      | Some v => if is_same (n_span v) (n_span n) then Ok (h, st') else Ok (h, st)
      end
  end.
(** trace_tree.go:16-26 with the compacter as visitor *)
Fixpoint compact_visit (t : tree node) (h : heap node) (st : list nat) : outcome (heap node * list nat) :=
  match t with
  | Node n cs =>
      let '(h1, st1) := enter n cs h st in
      do r <- (fix go (cs : list (tree node)) (h : heap node) (st : list nat) : outcome (heap node * list nat) :=
        match cs with
        | [] => Ok (h, st)
        | c :: cs' => do r <- compact_visit c h st; go cs' (fst r) (snd r)
        end) cs h1 st1;
      leave n (fst r) (snd r)
  end.
(** trace_tree.go:30: [&Span{}] *)
Definition empty_span : span :=
  {| s_name := []; s_trace_id := []; s_span_id := []; s_start := 0; s_end := 0; s_attrs := []; s_service := [] |}.
(** trace_tree.go:29-38: the root of the new tree, [None] is nil *)
Definition compact (t : tree node) : outcome (option (tree node)) :=
  let '(h, top) := alloc [] {| n_span := empty_span; n_parent := None |} in
  do r <- compact_visit t h [top];
  do top' <- tree_at (fst r) top;
  match t_children top' with
  | [] => Ok None
  | c :: _ => Ok (Some c)
  end.

(** ** Visitors *)
(** trace_tree.go:20-26: the spans in the order of Enter *)
Fixpoint spans_of (t : tree node) : list (tree node) :=
  match t with Node n cs => t :: flat_map spans_of cs end.
(** same_resource_count_visitor.go:12: span.ServiceName *)
Definition service_at (t : tree node) : gostring := s_service (n_span (t_val t)).

(** same_resource_count_visitor.go:11-14, over the spans in the order of Enter *)
Definition count_visit (l : list (tree node)) (m : smap Z) : smap Z :=
  fold_left (fun m t => mset m (service_at t) (match mget m (service_at t) with Some c => c | None => 0 end + 1)%Z) l m.
(** same_resource_count_visitor.go:19: lo.Max *)
Definition lo_max (l : list Z) : Z :=
  match l with
  | [] => 0
  | x :: l' => fold_left (fun m y => if Z.ltb m y then y else m) l' x
  end.
(** same_resource_count_visitor.go:18-20, trace_tree.go:40-47; lo.Values in the order
    of this run *)
Definition max_same_service (ord : list (gostring * Z) -> list (gostring * Z)) (t : tree node) : Z :=
  lo_max (map snd (ord (count_visit (spans_of t) []))).

(** span.go:77-89: the loop over the sorted child times *)
Fixpoint consumed_loop (times : list (Z * Z)) (consumed last_end : Z) : Z * Z :=
  match times with
  | [] => (consumed, last_end)
  | (a, b) :: times' =>
      let consumed' := if Z.ltb last_end a then u64 (consumed + u64 (a - last_end)) else consumed in
      consumed_loop times' consumed' (if Z.ltb last_end b then b else last_end)
  end.
(** span.go:75: lib.Sort by t[0] *)
Definition times_less (a b : Z * Z) : bool := Z.ltb (fst a) (fst b).
(** span.go:70-90 *)
Definition consumed_time (srt : list (Z * Z) -> list (Z * Z)) (t : tree node) : Z :=
  let s := n_span (t_val t) in
  let times := srt (map (fun c => (s_start (n_span (t_val c)), s_end (n_span (t_val c)))) (t_children t)) in
  let '(consumed, last_end) := consumed_loop times 0 (s_start s) in
  u64 (consumed + u64 (s_end s - last_end)).

(** compact_info_collect_visitor.go:8-11 *)
Definition consumed_visit (srt : list (Z * Z) -> list (Z * Z)) (l : list (tree node)) (m : smap Z) : smap Z :=
  fold_left (fun m t => mset m (service_at t)
     (u64 (match mget m (service_at t) with Some c => c | None => 0 end + consumed_time srt t))%Z) l m.
(** compact_info_collect_visitor.go:21-33 *)
Definition most_consumed (entries : list (gostring * Z)) : gostring :=
  fst (fold_left (fun best e => if Z.ltb (snd best) (snd e) then e else best) entries ([], 0%Z)).
(** compact_info_collect_visitor.go:21-33 for the map filled at 8-11 *)
Definition time_consuming_service (srt : list (Z * Z) -> list (Z * Z)) (ord : list (gostring * Z) -> list (gostring * Z))
  (t : tree node) : gostring :=
  most_consumed (ord (consumed_visit srt (spans_of t) [])).

(** ** trace_picker.go *)

(** trace_picker.go:17-21 *)
Definition pick_same_service (ord : list (gostring * Z) -> list (gostring * Z)) (threshold : Z) (traces : list (tree node))
  : list (tree node) :=
  filter (fun t => Z.ltb threshold (max_same_service ord t)) traces.
(** trace_picker.go:25-27 *)
Definition duration (t : tree node) : Z := u64 (s_end (n_span (t_val t)) - s_start (n_span (t_val t))).
(** trace_picker.go:25-27 *)
Definition faster (a b : tree node) : bool := Z.ltb (duration a) (duration b).
(** trace_picker.go:23-35.  A nil root, which panics, is outside the type. *)
Definition pick_slow (num : Z) (traces : list (tree node)) : outcome (list (tree node)) :=
  do r <- push_and_pop faster num traces;
  Ok (rev (fst r)).

(** ** trace_fetcher.go:56-72, for the traces the client returned.  A compacted tree
    without root panics at its first use by the pickers. *)
Fixpoint compact_all (ts : list (tree node)) : outcome (list (tree node)) :=
  match ts with
  | [] => Ok []
  | t :: ts' =>
      do c <- compact t;
      match c with
      | None => Panic
      | Some c => do r <- compact_all ts'; Ok (c :: r)
      end
  end.
(** trace_fetcher.go:56-72.  [ords k]: the order of the map in the [k]th conversion *)
Fixpoint find_compacted (ords : nat -> list bytes -> list bytes) (srt : list (tree node) -> list (tree node))
  (k : nat) (traces : list (list resource_spans)) : outcome (list (tree node)) :=
  match traces with
  | [] => Ok []
  | tr :: traces' =>
      do ts <- to_trace_trees (ords k) srt tr;
      do cs <- compact_all ts;
      do r <- find_compacted ords srt (S k) traces';
      Ok (cs ++ r)
  end.

(** ** The page: span.go:92-103, trace_tree.go:49-63 *)

(** fmt: %x of a byte slice, two lower case digits for each byte; span.go:97 *)
Definition hex_digit (n : N) : rune := if N.ltb n 10 then (48 + n)%N else (87 + n)%N.
(** span.go:97, trace_tree.go:59 *)
Definition hex (l : bytes) : gostring := flat_map (fun b => [hex_digit (b / 16); hex_digit (b mod 16)]) l.
(** viewmodel/vm_otel_trace_span.go:3-10 without the children *)
Record vm_span := { v_name : gostring; v_id : gostring; v_start : Z; v_end : Z; v_service : gostring }.
(** span.go:95-100 *)
Definition span_view (s : span) : vm_span :=
  {| v_name := s_name s; v_id := hex (s_span_id s);
     v_start := (s_start s / 1000 / 1000)%Z; v_end := (s_end s / 1000 / 1000)%Z; v_service := s_service s |}.
(** span.go:92-103 ToViewModel *)
Fixpoint to_view (t : tree node) : tree vm_span :=
  match t with Node n cs => Node (span_view (n_span n)) (map to_view cs) end.
(** viewmodel/vm_otel_compact_trace.go:3-8 *)
Record vm_trace := { vt_id : gostring; vt_count : Z; vt_service : gostring; vt_root : tree vm_span }.
(** trace_tree.go:49-64.  The two maps are visited in the orders of this run. *)
Definition to_compact_view (ordc ordt : list (gostring * Z) -> list (gostring * Z)) (srt : list (Z * Z) -> list (Z * Z))
  (t : tree node) : vm_trace :=
  {| vt_id := hex (s_trace_id (n_span (t_val t))); vt_count := max_same_service ordc t;
     vt_service := time_consuming_service srt ordt t; vt_root := to_view t |}.

(** ** Requests *)

(** trace_fetcher.go:46-54.  The whole seconds of an int64 of nanoseconds are exact as
    float64. *)
Definition i32 (z : Z) : Z := ((z + 2 ^ 31) mod 2 ^ 32 - 2 ^ 31)%Z.
(** int64 arithmetic; trace_fetcher.go:47-48 *)
Definition i64 (z : Z) : Z := ((z + 2 ^ 63) mod 2 ^ 64 - 2 ^ 63)%Z.
(** time.Second; trace_fetcher.go:47 *)
Definition second : Z := 1000000000.
(** trace_fetcher.go:46-54 toProtoDuration *)
Definition to_proto_duration (d : Z) : Z * Z :=
  let secs := Z.quot (i64 (d - Z.rem d second)) second in
  (secs, i32 (i64 (d - i64 (secs * second)))).
(** cmd/app/dig/jaeger.go:108: [time.Duration(ms) * time.Millisecond] *)
Definition millis (ms : Z) : Z := i64 (ms * 1000000).

(** api_v3.TraceQueryParameters *)
Record query := { q_service : gostring; q_min : Z; q_max : Z; q_num : Z; q_duration : Z * Z }.
(** trace_fetcher.go:29-30: [Unix()], whole seconds since the epoch, rounded down *)
Definition unix (t : Z) : Z := (t / second)%Z.
(** trace_fetcher.go:22 *)
Definition half_hour : Z := 1800000000000.
(** trace_fetcher.go:26-32 *)
Definition query_at (size : Z) (service : gostring) (dur start : Z) : query :=
  {| q_service := service; q_min := unix start; q_max := unix (start + half_hour); q_num := size;
     q_duration := to_proto_duration dur |}.

(** infra/jaeger/client.go:48-73: the chunks received before the end of the stream
    ([Ok]), or the error of the call or of a Recv *)
Definition client := query -> outcome (list (list resource_spans)).

(** trace_fetcher.go:25-43.  [ords j] are the orders of the conversions of the [j]th
    request. *)
Fixpoint fetch_windows (cli : client) (ords : nat -> nat -> list bytes -> list bytes) (srt : list (tree node) -> list (tree node))
  (size : Z) (service : gostring) (dur : Z) (j : nat) (times : list Z) : outcome (list (tree node)) :=
  match times with
  | [] => Ok []
  | start :: times' =>
      do traces <- cli (query_at size service dur start);
      do cs <- find_compacted (ords j) srt 0 traces;
      do r <- fetch_windows cli ords srt size service dur (S j) times';
      Ok (cs ++ r)
  end.
(** trace_fetcher.go:21-44; [None] is "not finished" *)
Definition fetch_compacted (fuel : nat) (cli : client) (ords : nat -> nat -> list bytes -> list bytes)
  (srt : list (tree node) -> list (tree node)) (size start end_ : Z) (service : gostring) (dur : Z)
  : option (outcome (list (tree node))) :=
  option_map (fetch_windows cli ords srt size service dur 0) (generate_time_ranges fuel start end_ half_hour).

(** cmd/app/dig/jaeger.go:61-80: the time span asked for; [given] is the parsed
    --start-from *)
Definition day : Z := 86400000000000.
(** cmd/app/dig/jaeger.go:61-78 *)
Definition dig_span (now : Z) (given : option Z) : Z * Z :=
  let start := match given with Some s => s | None => now - day end%Z in
  let end_ := (start + day)%Z in
  (start, if Z.ltb now end_ then now else end_).
(** cmd/app/dig/jaeger.go:106-115 *)
Definition dig (fuel : nat) (cli : client) (ords : nat -> nat -> list bytes -> list bytes)
  (srt : list (tree node) -> list (tree node)) (ordc : list (gostring * Z) -> list (gostring * Z))
  (count now : Z) (given : option Z) (service : gostring) (min_ms threshold : Z)
  : option (outcome (list (tree node) * list (tree node))) :=
  let '(start, end_) := dig_span now given in
  option_map (fun o => do traces <- o; do slow <- pick_slow 100 traces; Ok (slow, pick_same_service ordc threshold traces))
    (fetch_compacted fuel cli ords srt (i32 count) start end_ service (millis min_ms)).
