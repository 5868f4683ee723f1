(** Model of the charts of client/src/pages/dig/performance_insights.  The input is
    the table of Pi.v with rational loads.  Simplifications: exact arithmetic instead
    of doubles; the objects used as maps have no inherited members (JsCharts.v has them:
    a database or SQL called constructor is taken for known); Date is its number of
    milliseconds. *)
From Coq Require Import String List NArith ZArith QArith Bool Lia Arith.
From Verif Require Import Base Pi.
Import ListNotations.
Local Open Scope nat_scope.

Notation row := (@time_load Q).
Notation load := (@sql_load Q).

(** html/viewmodel/vm_time_db_load.go:10-12 MarshalJSON (time.Time.UnixMilli) and
    client/src/models/TimeDbLoad.ts:10-12 date *)
Definition row_date (r : row) : Z := (t_ns (tl_time r) / 1000000)%Z.

(** Array.prototype.includes *)
(** JavaScript; no lines in /repo *)
Definition includes (l : list gostring) (x : gostring) : bool := existsb (seqb x) l.
(** JavaScript's a < b *)
(** JavaScript; no lines in /repo *)
Definition qlt (a b : Q) : bool := negb (Qle_bool b a).

(** DbLoadChart.ts:89-95, DbTokenizedLoadChart.ts:99-105: what a point carries for its
    tooltip; the plain chart leaves out the id *)
Record point_prop := { pr_date : Z; pr_percent : Q; pr_db : gostring; pr_sql : gostring; pr_tok : gostring }.
(** lib/GrChart.ts: GrChartSeriesData, made at DbLoadChart.ts:86-96 *)
Record point := { p_x : Z; p_y : Q; p_prop : option point_prop }.
(** LoadPropChartSereies.ts:34-41 *)
Record series := { se_db : gostring; se_name : gostring; se_data : list point }.

(** DbLoadChart.ts:86-96, DbTokenizedLoadChart.ts:96-107 *)
Definition load_point (r : row) (db : gostring) (l : load) : point :=
  {| p_x := row_date r; p_y := sl_max l * 100;
     p_prop := Some {| pr_date := row_date r; pr_percent := sl_max l * 100; pr_db := db; pr_sql := sl_sql l; pr_tok := sl_tok l |} |}.
(** LoadPropChartSereies.ts:37-40,54-57 *)
Definition zero_point (r : row) : point := {| p_x := row_date r; p_y := 0; p_prop := None |}.

(** util/chart/LoadPropChartSereies.ts:26-49, one load of slot [i] *)
Definition push_load (threshold : Q) (i : nat) (r : row) (db : gostring) (ss : list series) (l : load) : list series :=
  if qlt (sl_max l) threshold then ss
  else upsert (fun s => seqb (se_db s) db && seqb (se_name s) (sl_sql l))
         {| se_db := db; se_name := sl_sql l; se_data := repeat (zero_point r) i ++ [load_point r db l] |}
         (fun s => {| se_db := se_db s; se_name := se_name s; se_data := se_data s ++ [load_point r db l] |}) ss.
(** LoadPropChartSereies.ts:23-50 *)
Definition push_db (targets : list gostring) (threshold : Q) (i : nat) (r : row) (ss : list series) (d : db_load) : list series :=
  if includes targets (dl_name d) then fold_left (push_load threshold i r (dl_name d)) (dl_sqls d) ss else ss.
(** LoadPropChartSereies.ts:52-59 *)
Definition fill (i : nat) (r : row) (s : series) : series :=
  if Nat.ltb (length (se_data s)) (i + 1)
  then {| se_db := se_db s; se_name := se_name s; se_data := se_data s ++ [zero_point r] |} else s.
(** LoadPropChartSereies.ts:22-59 *)
Definition push_row (targets : list gostring) (threshold : Q) (i : nat) (ss : list series) (r : row) : list series :=
  map (fill i r) (fold_left (push_db targets threshold i r) (tl_dbs r) ss).
(** LoadPropChartSereies.ts:8-63 createLoadPropChartSeries *)
Fixpoint push_rows (targets : list gostring) (threshold : Q) (i : nat) (rows : list row) (ss : list series) : list series :=
  match rows with
  | [] => ss
  | r :: rows' => push_rows targets threshold (S i) rows' (push_row targets threshold i ss r)
  end.
(** LoadPropChartSereies.ts:8-63 *)
Definition load_series (targets : list gostring) (threshold : Q) (rows : list row) : list series :=
  push_rows targets threshold 0 rows [].

(** ** Ranking *)

(** DbTokenizedLoadRankingChart.ts:47-53; DbLoadRankingChart.ts:45-49 has neither id nor
    date *)
Record rank := { rk_db : gostring; rk_sql : gostring; rk_percent : Q; rk_tok : gostring; rk_date : Z }.
(** DbTokenizedLoadRankingChart.ts:107-119, DbLoadRankingChart.ts:89-99.
    Simplification: the object of objects is one list of its entries. *)
Definition rank_load (r : row) (db : gostring) (ps : list rank) (l : load) : list rank :=
  upsert (fun p => seqb (rk_db p) db && seqb (rk_sql p) (sl_sql l))
    {| rk_db := db; rk_sql := sl_sql l; rk_percent := sl_sum l * 100; rk_tok := sl_tok l; rk_date := row_date r |}
    (fun p => {| rk_db := rk_db p; rk_sql := rk_sql p; rk_percent := rk_percent p + sl_sum l * 100;
                 rk_tok := rk_tok p; rk_date := rk_date p |}) ps.
(** DbLoadRankingChart.ts:82-100 *)
Definition rank_db (targets : list gostring) (r : row) (ps : list rank) (d : db_load) : list rank :=
  if includes targets (dl_name d) then fold_left (rank_load r (dl_name d)) (dl_sqls d) ps else ps.
(** DbLoadRankingChart.ts:81-101 *)
Definition rank_row (targets : list gostring) (ps : list rank) (r : row) : list rank :=
  fold_left (rank_db targets r) (tl_dbs r) ps.
(** DbTokenizedLoadRankingChart.ts:130 *)
Definition rank_less (a b : rank) : bool := qlt (rk_percent b) (rk_percent a).
(** DbLoadRankingChart.ts:79-123 createDbLoadChartSeries.  [keys] is the order in which
    Object.keys lists the entries, [srt] Array.prototype.sort with that comparison. *)
Definition ranking (keys srt : list rank -> list rank) (count : nat) (targets : list gostring) (rows : list row) : list rank :=
  firstn count (srt (keys (fold_left (rank_row targets) rows []))).

(** ** Raw loads of a tokenized SQL *)

(** util/chart/TokenizedLoad.ts:4-8 *)
Record raw_load := { rw_db : gostring; rw_load : load; rw_date : Z }.
(** TokenizedLoad.ts:10-31 createRawLoads *)
Definition raw_add (m : list (gostring * list raw_load)) (x : raw_load) : list (gostring * list raw_load) :=
  upsert (fun e => seqb (fst e) (sl_tok (rw_load x))) (sl_tok (rw_load x), [x]) (fun e => (fst e, snd e ++ [x])) m.
(** TokenizedLoad.ts:10-31 *)
Definition create_raw_loads (rows : list row) : list (gostring * list raw_load) :=
  fold_left (fun m r => fold_left (fun m d => fold_left (fun m l =>
     raw_add m {| rw_db := dl_name d; rw_load := l; rw_date := row_date r |}) (dl_sqls d) m) (tl_dbs r) m) rows [].
(** TokenizedLoad.ts:39-41 *)
Definition raw_less (a b : raw_load) : bool := qlt (sl_max (rw_load b)) (sl_max (rw_load a)).
(** TokenizedLoad.ts:33-44 pickRawLoads; spreading undefined is a TypeError *)
Definition pick_raw_loads (srt : list raw_load -> list raw_load) (m : list (gostring * list raw_load)) (size : nat) (tok : gostring)
  : outcome (list raw_load) :=
  match find (fun e => seqb (fst e) tok) m with
  | None => Panic
  | Some e => Ok (firstn size (srt (snd e)))
  end.

(** ** util/Databases.ts *)
(** new Set: the first occurrences in their order *)
(** JavaScript's Set; client: Databases.ts:3-8 *)
Definition uniq (l : list gostring) : list gostring :=
  fold_left (fun acc x => if includes acc x then acc else acc ++ [x]) l [].
(** Databases.ts:3-8 getAllDatabase; [srt] is Array.prototype.sort without arguments.
    Simplification: characters are compared by code point, JavaScript compares UTF-16
    units (Utf16.v). *)
Definition all_databases (srt : list gostring -> list gostring) (rows : option (list row)) : list gostring :=
  match rows with
  | None => []
  | Some rs => srt (uniq (concat (map (fun r => map dl_name (tl_dbs r)) rs)))
  end.
(** Databases.ts:10-16 *)
Definition first_database (l : list gostring) : list gostring := match l with [] => [] | d :: _ => [d] end.
(** HeavySqlTimeline.svelte:21-28: what is drawn when the page opens *)
Definition opening_series (srt : list gostring -> list gostring) (rows : list row) : list series :=
  load_series (first_database (all_databases srt (Some rows))) (5 # 1000) rows.
