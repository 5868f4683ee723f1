(** The charts of client/src/pages/dig/performance_insights with JavaScript's objects: an
    object used as a map also has the members that it inherits from Object.prototype, the
    series of a chart are shared between the list that is drawn and the map that finds
    them, and members put on an inherited object outlive the chart.  LoadCharts.v is the
    same without all this.  Simplification: members put on Object.prototype itself (a
    database called __proto__) are only seen through that name. *)
From Coq Require Import String List NArith ZArith QArith Bool Lia Arith.
From Verif Require Import Base Pi LoadCharts.
Import ListNotations.
Local Open Scope nat_scope.

(** the members of Object.prototype (ECMA-262 20.1.3, B.2.2); all of them are truthy *)
Definition proto_names : list gostring :=
  [lit "constructor"; lit "__proto__"; lit "__defineGetter__"; lit "__defineSetter__"; lit "__lookupGetter__"; lit "__lookupSetter__";
   lit "hasOwnProperty"; lit "isPrototypeOf"; lit "propertyIsEnumerable"; lit "toLocaleString"; lit "toString"; lit "valueOf"].
(** JavaScript (ECMA-262); no lines in /repo *)
Definition inherited (k : gostring) : bool := existsb (seqb k) proto_names.

(** an object's own members in the order of their creation *)
(** JavaScript (ECMA-262); no lines in /repo *)
Definition own {V} (k : gostring) (o : list (gostring * V)) : option V := option_map snd (find (fun e => seqb (fst e) k) o).
(** JavaScript (ECMA-262); no lines in /repo *)
Fixpoint put {V} (k : gostring) (v : V) (o : list (gostring * V)) : list (gostring * V) :=
  match o with
  | [] => [(k, v)]
  | e :: o' => if seqb (fst e) k then (k, v) :: o' else e :: put k v o'
  end.
(** Object.keys: array indexes by number, then the others as they were created *)
(** JavaScript (ECMA-262); no lines in /repo *)
Definition digit (c : rune) : bool := N.leb 48 c && N.leb c 57.
(** JavaScript (ECMA-262); no lines in /repo *)
Definition index_key (k : gostring) : option N :=
  let n := fold_left (fun a c => (a * 10 + (c - 48))%N) k 0%N in
  match k with
  | [] => None
  | c :: k' => if forallb digit k && (negb (N.eqb c 48) || seqb k' []) && N.ltb n 4294967295 then Some n else None
  end.
(** JavaScript (ECMA-262); no lines in /repo *)
Fixpoint insert_key (n : N) (k : gostring) (l : list (N * gostring)) : list (N * gostring) :=
  match l with
  | [] => [(n, k)]
  | (m, k') :: l' => if N.ltb n m then (n, k) :: l else (m, k') :: insert_key n k l'
  end.
(** JavaScript (ECMA-262); no lines in /repo *)
Fixpoint index_keys (l : list gostring) : list (N * gostring) :=
  match l with
  | [] => []
  | k :: l' => match index_key k with Some n => insert_key n k (index_keys l') | None => index_keys l' end
  end.
(** JavaScript (ECMA-262); no lines in /repo *)
Definition js_keys (l : list gostring) : list gostring :=
  map snd (index_keys l) ++ filter (fun k => match index_key k with Some _ => false | None => true end) l.

(** the for loops, e.g. LoadPropChartSereies.ts:23,26; an exception ends them *)
Fixpoint ofold {A B} (f : A -> B -> outcome A) (l : list B) (a : A) : outcome A :=
  match l with [] => Ok a | b :: l' => do a' <- f a b; ofold f l' a' end.

(** what charts have put on the inherited objects: a series of a chart, or an entry of a
    ranking (of which nothing is read again) *)
(** LoadPropChartSereies.ts:42, DbLoadRankingChart.ts:93 *)
Inductive left_over := LSeries (ref : nat) | LRank.
(** the series ever made, and what is left on each inherited object *)
(** JavaScript's memory; no lines in /repo *)
Record page_heap := { ph_series : list series; ph_left : list (gostring * list (gostring * left_over)) }.
(** JavaScript's memory; no lines in /repo *)
Definition left_on (h : page_heap) (k : gostring) : list (gostring * left_over) :=
  match own k (ph_left h) with Some o => o | None => [] end.

Section Objects.
  (** whether an inherited object has itself a member, and if it is an object or not
      (Object.keys, Object.length) *)
  Context (member : gostring -> gostring -> option bool).

  (** ** util/chart/LoadPropChartSereies.ts *)
  (** knownSeries and the series to draw *)
  (** LoadPropChartSereies.ts:18-19 *)
  Record drawing := { dr_heap : page_heap; dr_known : list (gostring * list (gostring * nat)); dr_out : list nat }.
  (** LoadPropChartSereies.ts:46-48 *)
  Fixpoint push_at (n : nat) (p : point) (l : list series) : list series :=
    match l, n with
    | [], _ => []
    | s :: l', 0 => {| se_db := se_db s; se_name := se_name s; se_data := se_data s ++ [p] |} :: l'
    | s :: l', S n' => s :: push_at n' p l'
    end.
  (** LoadPropChartSereies.ts:46-48 *)
  Definition push_ref (d : drawing) (ref : nat) (p : point) : drawing :=
    {| dr_heap := {| ph_series := push_at ref p (ph_series (dr_heap d)); ph_left := ph_left (dr_heap d) |};
       dr_known := dr_known d; dr_out := dr_out d |}.
  (** LoadPropChartSereies.ts:34-43: new series, in the map by [enter] *)
  Definition new_series (i : nat) (r : row) (db : gostring) (l : load) (enter : drawing -> nat -> drawing) (d : drawing) : drawing :=
    let ref := length (ph_series (dr_heap d)) in
    let d1 := enter d ref in
    {| dr_heap := {| ph_series := ph_series (dr_heap d1) ++ [{| se_db := db; se_name := sl_sql l; se_data := repeat (zero_point r) i |}];
                     ph_left := ph_left (dr_heap d1) |};
       dr_known := dr_known d1; dr_out := dr_out d1 ++ [ref] |}.
  (** LoadPropChartSereies.ts:42 *)
  Definition enter_known (db sql : gostring) (inner : list (gostring * nat)) (d : drawing) (ref : nat) : drawing :=
    {| dr_heap := dr_heap d; dr_known := put db (put sql ref inner) (dr_known d); dr_out := dr_out d |}.
  (** LoadPropChartSereies.ts:42 *)
  Definition enter_left (db sql : gostring) (d : drawing) (ref : nat) : drawing :=
    {| dr_heap := {| ph_series := ph_series (dr_heap d); ph_left := put db (put sql (LSeries ref) (left_on (dr_heap d) db)) (ph_left (dr_heap d)) |};
       dr_known := dr_known d; dr_out := dr_out d |}.
  (** LoadPropChartSereies.ts:26-49.  An inherited member has no data: a TypeError. *)
  Definition js_push_load (threshold : Q) (i : nat) (r : row) (db : gostring) (d : drawing) (l : load) : outcome drawing :=
    if qlt (sl_max l) threshold then Ok d
    else
      let p := load_point r db l in
      let sql := sl_sql l in
      let plain inner :=
        match own sql inner with
        | Some ref => Ok (push_ref d ref p)
        | None =>
            if inherited sql then Panic
            else Ok (push_ref (new_series i r db l (enter_known db sql inner) d) (length (ph_series (dr_heap d))) p)
        end in
      match own db (dr_known d) with
      | Some inner => plain inner
      | None =>
          if inherited db then
            match own sql (left_on (dr_heap d) db) with
            | Some (LSeries ref) => Ok (push_ref d ref p)
            | Some LRank => Panic
            | None =>
                match member db sql with
                | Some _ => Panic
                | None => Ok (push_ref (new_series i r db l (enter_left db sql) d) (length (ph_series (dr_heap d))) p)
                end
            end
          else plain []
      end.
  (** LoadPropChartSereies.ts:23-50 *)
  Definition js_push_db (targets : list gostring) (threshold : Q) (i : nat) (r : row) (d : drawing) (x : db_load) : outcome drawing :=
    if includes targets (dl_name x) then ofold (js_push_load threshold i r (dl_name x)) (dl_sqls x) d else Ok d.
  (** LoadPropChartSereies.ts:52-59 *)
  Definition js_fill (i : nat) (r : row) (d : drawing) : drawing :=
    fold_left (fun d ref =>
      match nth_error (ph_series (dr_heap d)) ref with
      | Some s => if Nat.ltb (length (se_data s)) (i + 1) then push_ref d ref (zero_point r) else d
      | None => d
      end) (dr_out d) d.
  (** LoadPropChartSereies.ts:21-60 *)
  Fixpoint js_push_rows (targets : list gostring) (threshold : Q) (i : nat) (rows : list row) (d : drawing) : outcome drawing :=
    match rows with
    | [] => Ok d
    | r :: rows' => do d' <- ofold (js_push_db targets threshold i r) (tl_dbs r) d; js_push_rows targets threshold (S i) rows' (js_fill i r d')
    end.
  (** LoadPropChartSereies.ts:8-63 createLoadPropChartSeries *)
  Definition js_load_series (targets : list gostring) (threshold : Q) (rows : list row) (h : page_heap) : outcome (page_heap * list series) :=
    do d <- js_push_rows targets threshold 0 rows {| dr_heap := h; dr_known := []; dr_out := [] |};
    Ok (dr_heap d, flat_map (fun ref => match nth_error (ph_series (dr_heap d)) ref with Some s => [s] | None => [] end) (dr_out d)).

  (** ** DbLoadRankingChart.ts and DbTokenizedLoadRankingChart.ts *)
  (** DbLoadRankingChart.ts:80 *)
  Record ranking_state := { rs_left : list (gostring * list (gostring * left_over)); rs_props : list (gostring * list (gostring * rank)) }.
  (** DbTokenizedLoadRankingChart.ts:107-119, DbLoadRankingChart.ts:89-99.  Adding to a
      member of an inherited object shows nowhere; to a member that is no object it is
      a TypeError. *)
  Definition js_rank_load (r : row) (db : gostring) (s : ranking_state) (l : load) : outcome ranking_state :=
    let sql := sl_sql l in
    match own db (rs_props s) with
    | Some inner =>
        match own sql inner with
        | Some p =>
            Ok {| rs_left := rs_left s;
                  rs_props := put db (put sql {| rk_db := rk_db p; rk_sql := rk_sql p; rk_percent := rk_percent p + sl_sum l * 100;
                                                 rk_tok := rk_tok p; rk_date := rk_date p |} inner) (rs_props s) |}
        | None =>
            if inherited sql then Ok s
            else Ok {| rs_left := rs_left s;
                       rs_props := put db (put sql {| rk_db := db; rk_sql := sql; rk_percent := sl_sum l * 100; rk_tok := sl_tok l; rk_date := row_date r |} inner)
                                       (rs_props s) |}
        end
    | None =>
        let there := match own db (rs_left s) with Some o => o | None => [] end in
        match own sql there with
        | Some _ => Ok s
        | None =>
            match member db sql with
            | Some false => Ok s
            | Some true => Panic
            | None => Ok {| rs_left := put db (put sql LRank there) (rs_left s); rs_props := rs_props s |}
            end
        end
    end.
  (** DbTokenizedLoadRankingChart.ts:100-106, DbLoadRankingChart.ts:82-88 *)
  Definition js_rank_db (targets : list gostring) (r : row) (s : ranking_state) (x : db_load) : outcome ranking_state :=
    if includes targets (dl_name x) then
      let s1 := match own (dl_name x) (rs_props s) with
                | Some _ => s
                | None => if inherited (dl_name x) then s else {| rs_left := rs_left s; rs_props := put (dl_name x) [] (rs_props s) |}
                end in
      ofold (js_rank_load r (dl_name x)) (dl_sqls x) s1
    else Ok s.
  (** DbLoadRankingChart.ts:81-101, DbTokenizedLoadRankingChart.ts:99-121 *)
  Definition js_rank_row (targets : list gostring) (s : ranking_state) (r : row) : outcome ranking_state :=
    ofold (js_rank_db targets r) (tl_dbs r) s.
  (** DbTokenizedLoadRankingChart.ts:123-127, DbLoadRankingChart.ts:103-107 *)
  Definition all_props (props : list (gostring * list (gostring * rank))) : list rank :=
    flat_map (fun db => match own db props with
      | Some inner => flat_map (fun sql => match own sql inner with Some p => [p] | None => [] end) (js_keys (map fst inner))
      | None => []
      end) (js_keys (map fst props)).
  (** DbLoadRankingChart.ts:79-123, DbTokenizedLoadRankingChart.ts:94-143 createDbLoadChartSeries *)
  Definition js_ranking (srt : list rank -> list rank) (count : nat) (targets : list gostring) (rows : list row) (h : page_heap)
      : outcome (page_heap * list rank) :=
    do s <- ofold (js_rank_row targets) rows {| rs_left := ph_left h; rs_props := [] |};
    Ok ({| ph_series := ph_series h; ph_left := rs_left s |}, firstn count (srt (all_props (rs_props s)))).
End Objects.

(** ** util/chart/TokenizedLoad.ts *)
(** TokenizedLoad.ts:10-31 createRawLoads; an inherited member has no push: a TypeError *)
Definition js_raw_add (m : list (gostring * list raw_load)) (x : raw_load) : outcome (list (gostring * list raw_load)) :=
  let tok := sl_tok (rw_load x) in
  match own tok m with
  | Some l => Ok (put tok (l ++ [x]) m)
  | None => if inherited tok then Panic else Ok (put tok [x] m)
  end.
(** TokenizedLoad.ts:10-31 *)
Definition js_create_raw_loads (rows : list row) : outcome (list (gostring * list raw_load)) :=
  ofold (fun m r => ofold (fun m d => ofold (fun m l =>
     js_raw_add m {| rw_db := dl_name d; rw_load := l; rw_date := row_date r |}) (dl_sqls d) m) (tl_dbs r) m) rows [].
(** TokenizedLoad.ts:33-44 pickRawLoads; neither undefined nor an inherited member can be spread *)
Definition js_pick_raw_loads (srt : list raw_load -> list raw_load) (m : list (gostring * list raw_load)) (size : nat) (tok : gostring)
    : outcome (list raw_load) :=
  match own tok m with Some l => Ok (firstn size (srt l)) | None => Panic end.
