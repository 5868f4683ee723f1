(** Performance Insights: fetching the metrics of the RDS instances and summing them
    up per hour, database and SQL.

    Loads are float64 in the code.  The model is generic in the type [V] of loads, its
    addition and its comparison, so it also describes float64 with its rounding: the
    additions happen in the order of the code. *)
From Coq Require Import String List NArith ZArith Bool Lia Arith.
From Verif Require Import Base.
Import ListNotations.
Local Open Scope nat_scope.

(** ** Times.  A time.Time is an instant (nanoseconds since the epoch) with a location.
    As map keys two times are equal when instant and location are.  UTC is the nil
    location; another location is named by a number.
    Simplification: a location has one offset from UTC (in nanoseconds), no daylight
    saving changes. *)
(** Go's time package; no lines in /repo *)
Inductive location := UTC | Zone (id : nat) (offset : Z).
(** Go's time package; no lines in /repo *)
Record gtime := { t_ns : Z; t_loc : location }.
(** Go's time package; no lines in /repo *)
Definition offset_of (l : location) : Z := match l with UTC => 0%Z | Zone _ o => o end.
(** Go's time package; no lines in /repo *)
Definition loc_eqb (a b : location) : bool :=
  match a, b with
  | UTC, UTC => true
  | Zone i x, Zone j y => Nat.eqb i j && Z.eqb x y
  | _, _ => false
  end.
(** Go's time package; no lines in /repo *)
Definition time_eqb (a b : gtime) : bool := Z.eqb (t_ns a) (t_ns b) && loc_eqb (t_loc a) (t_loc b).
(** Go's time package; no lines in /repo *)
Definition hour : Z := 3600000000000.
(** lib/time.go:5-11: the clock of the time's own location with minutes and below set
    to zero *)
Definition normalize_by_hour (t : gtime) : gtime :=
  let local := (t_ns t + offset_of (t_loc t))%Z in
  {| t_ns := local / hour * hour - offset_of (t_loc t); t_loc := t_loc t |}.
(** time.Time.UTC *)
(** Go's time package; no lines in /repo *)
Definition utc (t : gtime) : gtime := {| t_ns := t_ns t; t_loc := UTC |}.
(** time.Time.Add *)
(** Go's time package; no lines in /repo *)
Definition tadd (t : gtime) (d : Z) : gtime := {| t_ns := t_ns t + d; t_loc := t_loc t |}.

Section Loads.
  Context {V : Type} (vadd : V -> V -> V) (vlt : V -> V -> bool) (vzero : V -> bool).

  (** infra/aws/performance_insights.go uses of the SDK's types
      GetResourceMetricsOutput, MetricKeyDataPoints, ResponseResourceMetricKey and
      DataPoint: pointers are options, a nil Dimensions map is [None] *)
  (** performance_insights.go:93-108 *)
  Record data_point := { dp_time : option gtime; dp_value : option V }.
  (** performance_insights.go:79-92 *)
  Record metric_key := { mk_metric : option gostring; mk_dims : option (smap gostring) }.
  (** performance_insights.go:78-92 *)
  Record metric := { m_key : option metric_key; m_points : list data_point }.

  (** infra/aws/rds_db.go:3-6 *)
  Record rds_db := { db_name : gostring; db_resource : gostring }.
  (** infra/aws/pi_sql_load_avg.go:9-22, pi_time_value.go *)
  Record load_avg := {
    la_db : gostring; la_sql : gostring; la_tok : gostring;
    la_values : list (V * gtime)
  }.

  (** infra/aws/performance_insights.go:93-108 *)
  Fixpoint usable (dps : list data_point) : list (V * gtime) :=
    match dps with
    | [] => []
    | dp :: dps' =>
        match dp_time dp, dp_value dp with
        | Some t, Some v => if vzero v then usable dps' else (v, t) :: usable dps'
        | _, _ => usable dps'
        end
    end.
  (** a Go map read: the zero value if missing *)
  (** performance_insights.go:88-89 *)
  Definition dim (dims : smap gostring) (k : gostring) : gostring :=
    match mget dims k with Some v => v | None => [] end.
  (** infra/aws/performance_insights.go:76-112; a nil Key panics *)
  Fixpoint convert_metrics (db : rds_db) (ms : list metric) (sqlKey tokKey : gostring) : outcome (list load_avg) :=
    match ms with
    | [] => Ok []
    | m :: ms' =>
        match m_key m with
        | None => Panic
        | Some k =>
            do r <- convert_metrics db ms' sqlKey tokKey;
            match mk_metric k with
            | None => Ok r
            | Some name =>
                if seqb name (lit "db.load.avg") then
                  match mk_dims k with
                  | None => Ok r
                  | Some dims =>
                      Ok ({| la_db := db_name db; la_sql := dim dims sqlKey; la_tok := dim dims tokKey;
                             la_values := usable (m_points m) |} :: r)
                  end
                else Ok r
            end
        end
    end.

  (** infra/aws/performance_insights.go:52-67 *)
  Record request := {
    rq_identifier : gostring; rq_metric : gostring; rq_group : gostring; rq_limit : Z;
    rq_start : gtime; rq_end : gtime; rq_period : Z
  }.
  (** performance_insights.go:52-67 *)
  Definition half_day_request (db : rds_db) (start : gtime) (group : gostring) : request :=
    {| rq_identifier := db_resource db; rq_metric := lit "db.load.avg"; rq_group := group; rq_limit := 10;
       rq_start := start; rq_end := tadd start (12 * hour); rq_period := 300 |}.
  (** The service: the answer to the [n]th call *)
  (** performance_insights.go:17-19,52 *)
  Definition pi_client := nat -> request -> outcome (list metric).
  (** infra/aws/performance_insights.go:51-74 *)
  Definition get_half_day (cli : pi_client) (n : nat) (db : rds_db) (start : gtime) (group : gostring)
    : outcome (list metric) :=
    match cli n (half_day_request db start group) with
    | Err m => Err (lit "failed to call GetResourceMetrics of PerformanceInsights: " ++ m)
    | o => o
    end.
  (** infra/aws/performance_insights.go:31-39 (constants 14-18) *)
  Definition get_half_day_sql (cli : pi_client) (n : nat) (db : rds_db) (start : gtime) : outcome (list load_avg) :=
    do out <- get_half_day cli n db start (lit "db.sql");
    convert_metrics db out (lit "db.sql.statement") (lit "db.sql.tokenized_id").
  (** infra/aws/performance_insights.go:41-49 *)
  Definition get_half_day_tok (cli : pi_client) (n : nat) (db : rds_db) (start : gtime) : outcome (list load_avg) :=
    do out <- get_half_day cli n db start (lit "db.sql_tokenized");
    convert_metrics db out (lit "db.sql_tokenized.statement") (lit "db.sql_tokenized.id").

  (** html/viewmodel/vm_db_load_of_sql.go, vm_db_load.go, vm_time_db_load.go *)
  (** html/viewmodel/vm_db_load_of_sql.go:3-8 *)
  Record sql_load := { sl_sql : gostring; sl_max : V; sl_sum : V; sl_tok : gostring }.
  (** html/viewmodel/vm_db_load.go:3-6 *)
  Record db_load := { dl_name : gostring; dl_sqls : list sql_load }.
  (** html/viewmodel/vm_time_db_load.go:14-17 *)
  Record time_load := { tl_time : gtime; tl_dbs : list db_load }.

  (** The first element satisfying [is] changed by [upd], or [new] appended.  Looking
      an entry up in a Go map or a slice and adding it if missing has this form. *)
  (** pi_sql_load_avg.go:29-65 *)
  Fixpoint upsert {E} (is : E -> bool) (new : E) (upd : E -> E) (l : list E) : list E :=
    match l with
    | [] => [new]
    | e :: l' => if is e then upd e :: l' else e :: upsert is new upd l'
    end.

  (** One value [v] of one [avg], infra/aws/pi_sql_load_avg.go:28-66.
      Simplification: sqlLoadMap and dbLoadMap hold pointers into the same structures,
      an entry of dbLoadMap at a time being one of the Databases of sqlLoadMap's entry;
      here there is one list of entries, in the order they were created. *)
  Record sample := { s_time : gtime; s_db : gostring; s_sql : gostring; s_tok : gostring; s_value : V }.
  (** pi_sql_load_avg.go:59-64 *)
  Definition new_sql (s : sample) : sql_load :=
    {| sl_sql := s_sql s; sl_max := s_value s; sl_sum := s_value s; sl_tok := s_tok s |}.
  (** pi_sql_load_avg.go:48-51 *)
  Definition upd_sql (s : sample) (l : sql_load) : sql_load :=
    {| sl_sql := sl_sql l; sl_max := if vlt (sl_max l) (s_value s) then s_value s else sl_max l;
       sl_sum := vadd (sl_sum l) (s_value s); sl_tok := sl_tok l |}.
  (** pi_sql_load_avg.go:45-65 *)
  Definition upd_db (s : sample) (d : db_load) : db_load :=
    {| dl_name := dl_name d;
       dl_sqls := upsert (fun l => seqb (sl_sql l) (s_sql s)) (new_sql s) (upd_sql s) (dl_sqls d) |}.
  (** pi_sql_load_avg.go:39 *)
  Definition new_db (s : sample) : db_load := upd_db s {| dl_name := s_db s; dl_sqls := [] |}.
  (** pi_sql_load_avg.go:38-65 *)
  Definition upd_time (s : sample) (t : time_load) : time_load :=
    {| tl_time := tl_time t;
       tl_dbs := upsert (fun d => seqb (dl_name d) (s_db s)) (new_db s) (upd_db s) (tl_dbs t) |}.
  (** pi_sql_load_avg.go:31 *)
  Definition new_time (s : sample) : time_load :=
    upd_time s {| tl_time := normalize_by_hour (s_time s); tl_dbs := [] |}.
  (** pi_sql_load_avg.go:29-65 *)
  Definition add_sample (tbl : list time_load) (s : sample) : list time_load :=
    upsert (fun t => time_eqb (tl_time t) (normalize_by_hour (s_time s))) (new_time s) (upd_time s) tbl.
  (** pi_sql_load_avg.go:27-67 *)
  Definition samples_of (avgs : list load_avg) : list sample :=
    flat_map (fun a => map (fun vt => {| s_time := snd vt; s_db := la_db a; s_sql := la_sql a; s_tok := la_tok a;
                                         s_value := fst vt |}) (la_values a)) avgs.
  (** pi_sql_load_avg.go:24-68 *)
  Definition load_table (avgs : list load_avg) : list time_load :=
    fold_left add_sample (samples_of avgs) [].

  (** pi_sql_load_avg.go:71-78; [fuel] bounds the rounds, [None] is "not finished".
      time.Time.After compares instants. *)
  Fixpoint load_rows (fuel : nat) (tbl : list time_load) (target end_ : gtime) : option (list time_load) :=
    if Z.ltb (t_ns end_) (t_ns target) then Some []
    else match fuel with
         | 0 => None
         | S fuel' =>
             let row := match find (fun t => time_eqb (tl_time t) target) tbl with
                        | Some l => l
                        | None => {| tl_time := target; tl_dbs := [] |}
                        end in
             option_map (cons row) (load_rows fuel' tbl (tadd target hour) end_)
         end.
  (** pi_sql_load_avg.go:24-81 *)
  Definition convert_loads (fuel : nat) (start end_ : gtime) (avgs : list load_avg) : option (list time_load) :=
    load_rows fuel (load_table avgs) (utc (normalize_by_hour start)) end_.

  (** infra/aws/rds.go:27-46: an instance is a pair of possibly nil identifiers *)
  Definition instance : Type := option gostring * option gostring.
  (** infra/aws/rds.go:37-43 *)
  Fixpoint rds_dbs (is : list instance) : outcome (list rds_db) :=
    match is with
    | [] => Ok []
    | (Some name, Some res) :: is' =>
        do r <- rds_dbs is'; Ok ({| db_name := name; db_resource := res |} :: r)
    | _ :: _ => Panic
    end.
  (** infra/aws/rds.go:27-46 *)
  Definition get_dbs (describe : list gostring -> outcome (list instance)) (engines : list gostring) : outcome (list rds_db) :=
    match describe engines with
    | Ok is => rds_dbs is
    | Err m => Err (lit "failed to describe db instances: " ++ m)
    | Panic => Panic
    end.

  (** cmd/db/dig/performance_insights.go:65-81: [k] windows from [current] on; [n] is
      the number of calls made before *)
  Fixpoint dig_windows (k : nat) (cli : pi_client) (n : nat) (db : rds_db) (current : gtime)
    : outcome (list load_avg * list load_avg) :=
    match k with
    | 0 => Ok ([], [])
    | S k' =>
        do avgs <- get_half_day_sql cli n db current;
        do tavgs <- get_half_day_tok cli (S n) db current;
        do r <- dig_windows k' cli (S (S n)) db (tadd current (12 * hour));
        Ok (avgs ++ fst r, tavgs ++ snd r)
    end.
  (** cmd/db/dig/performance_insights.go:63-82 *)
  Fixpoint dig_dbs (cli : pi_client) (n : nat) (dbs : list rds_db) (start : gtime)
    : outcome (list load_avg * list load_avg) :=
    match dbs with
    | [] => Ok ([], [])
    | db :: dbs' =>
        do a <- dig_windows 14 cli n db start;
        do r <- dig_dbs cli (n + 28) dbs' start;
        Ok (fst a ++ fst r, snd a ++ snd r)
    end.
  (** cmd/db/dig/performance_insights.go:46-86; [given] is the parsed --start-from *)
  Definition week : Z := 7 * 24 * hour.
  (** cmd/db/dig/performance_insights.go:46-86 *)
  Definition pi_dig (fuel : nat) (describe : list gostring -> outcome (list instance)) (cli : pi_client)
    (now : gtime) (given : option gtime) : outcome (option (list time_load) * option (list time_load)) :=
    do dbs <- get_dbs describe [lit "mysql"];
    let start := match given with Some t => t | None => tadd now (- week) end in
    let end_ := tadd start week in
    do r <- dig_dbs cli 0 dbs start;
    Ok (convert_loads fuel start end_ (fst r), convert_loads fuel start end_ (snd r)).
End Loads.
