(** What the hourly loads of Performance Insights are, without reference to the code. *)
From Coq Require Import String List NArith ZArith Bool Lia Arith.
From Verif Require Import Base Pi.
From Verif Require OtelSpec.
Import ListNotations.
Local Open Scope nat_scope.

(** the elements satisfying [P], in order *)
Notation exactly := OtelSpec.sublist_where.

(** [es] has one entry for each key occurring in [xs], in order of first occurrence,
    and the entry of a key has the [content] of all elements with that key. *)
Inductive grouped {X E K} (kx : X -> K) (key : E -> K) (content : list X -> E -> Prop) : list X -> list E -> Prop :=
| gr_nil : grouped kx key content [] []
| gr_cons : forall x xs same others e es,
    exactly (fun y => kx y = kx x) xs same ->
    exactly (fun y => kx y <> kx x) xs others ->
    key e = kx x -> content (x :: same) e ->
    grouped kx key content others es ->
    grouped kx key content (x :: xs) (e :: es).

(** [lt] has no cycles and what is not less is at least *)
Definition weak_order {V} (lt : V -> V -> bool) : Prop :=
  (forall a b, lt a b = true -> lt b a = false) /\
  (forall a b c, lt a b = false -> lt b c = false -> lt a c = false).

Section S.
  Context {V : Type} (vadd : V -> V -> V) (vlt : V -> V -> bool).

  (** The loads of one SQL: the sum in the order received, a largest value, and the id
      of the first sample. *)
  Definition sql_content (g : list (@sample V)) (l : sql_load) : Prop :=
    exists first others, g = first :: others /\
      sl_tok l = s_tok first /\
      sl_sum l = fold_left vadd (map s_value others) (s_value first) /\
      In (sl_max l) (map s_value g) /\
      (forall s, In s g -> vlt (sl_max l) (s_value s) = false).
  Definition db_content (g : list (@sample V)) (d : db_load) : Prop :=
    grouped s_sql sl_sql sql_content g (dl_sqls d).
  Definition hour_content (g : list (@sample V)) (dbs : list db_load) : Prop :=
    grouped s_db dl_name db_content g dbs.
End S.

(** [h] begins the hour of a clock [offset] ahead of UTC in which [t] lies *)
Definition clock_hour (offset t h : Z) : Prop :=
  (h <= t < h + 3600000000000)%Z /\ (3600000000000 | h + offset)%Z.

(** the samples of the averages in order *)
Inductive samples_in {V} : list (@load_avg V) -> list (@sample V) -> Prop :=
| si_nil : samples_in [] []
| si_none : forall db sql tok avgs ss,
    samples_in avgs ss -> samples_in ({| la_db := db; la_sql := sql; la_tok := tok; la_values := [] |} :: avgs) ss
| si_some : forall db sql tok v t vts avgs ss,
    samples_in ({| la_db := db; la_sql := sql; la_tok := tok; la_values := vts |} :: avgs) ss ->
    samples_in ({| la_db := db; la_sql := sql; la_tok := tok; la_values := (v, t) :: vts |} :: avgs)
      ({| s_time := t; s_db := db; s_sql := sql; s_tok := tok; s_value := v |} :: ss).

(** ** Conversion of the metrics *)
Definition dimension (dims : smap gostring) (k v : gostring) : Prop :=
  mget dims k = Some v \/ (mget dims k = None /\ v = []).
(** A metric of loads by SQL: its name and dimensions, and its points *)
Definition sql_metric {V} (m : @metric V) (dims : smap gostring) : Prop :=
  m_key m = Some {| mk_metric := Some (lit "db.load.avg"); mk_dims := Some dims |}.
Definition load_of {V} (vzero : V -> bool) (db : rds_db) (sqlKey tokKey : gostring) (m : @metric V) (a : load_avg) : Prop :=
  exists dims points, sql_metric m dims /\
    la_db a = db_name db /\ dimension dims sqlKey (la_sql a) /\ dimension dims tokKey (la_tok a) /\
    exactly (fun p => exists t v, p = {| dp_time := Some t; dp_value := Some v |} /\ vzero v = false) (m_points m) points /\
    Forall2 (fun p vt => p = {| dp_time := Some (snd vt); dp_value := Some (fst vt) |}) points (la_values a).

(** ** The rows *)
(** the sample lies in the hour from [h] on, and its time is given in UTC *)
Definition in_hour {V} (h : Z) (s : @sample V) : Prop :=
  t_loc (s_time s) = UTC /\ clock_hour 0 (t_ns (s_time s)) h.
(** From the clock hour of the start to the last hour that begins no later than the
    end: one row per hour, of all the samples of that hour. *)
Definition hourly {V} (vadd : V -> V -> V) (vlt : V -> V -> bool) (start end_ : gtime) (avgs : list load_avg)
  (rows : list (@time_load V)) : Prop :=
  exists ss h0, samples_in avgs ss /\ clock_hour (offset_of (t_loc start)) (t_ns start) h0 /\
    (forall k, k < length rows <-> (h0 + Z.of_nat k * 3600000000000 <= t_ns end_)%Z) /\
    (forall k row, nth_error rows k = Some row ->
       tl_time row = {| t_ns := h0 + Z.of_nat k * 3600000000000; t_loc := UTC |} /\
       exists g, exactly (in_hour (h0 + Z.of_nat k * 3600000000000)) ss g /\ hour_content vadd vlt g (tl_dbs row)).
Definition total {V} (vadd : V -> V -> V) (zero : V) (l : list V) : V := fold_right vadd zero l.
Definition all_sums {V} (rows : list (@time_load V)) : list V :=
  flat_map (fun r => flat_map (fun d => map sl_sum (dl_sqls d)) (tl_dbs r)) rows.

(** ** Fetching *)
(** The [i]th half day *)
Definition half_day (start : gtime) (i : nat) : gtime * gtime :=
  ({| t_ns := t_ns start + Z.of_nat i * 43200000000000; t_loc := t_loc start |},
   {| t_ns := t_ns start + Z.of_nat (S i) * 43200000000000; t_loc := t_loc start |}).
(** The question about the 10 highest loads of the group in that half day, for every
    five minutes *)
Definition asks (db : rds_db) (start : gtime) (group : gostring) (i : nat) (r : request) : Prop :=
  rq_identifier r = db_resource db /\ rq_metric r = lit "db.load.avg" /\ rq_group r = group /\
  rq_limit r = 10%Z /\ rq_period r = 300%Z /\ (rq_start r, rq_end r) = half_day start i.
(** Call [n] asks this and its answer converts to [avgs] *)
Definition answered {V} (vzero : V -> bool) (cli : @pi_client V) (n : nat) (db : rds_db) (start : gtime)
  (group sqlKey tokKey : gostring) (i : nat) (avgs : list load_avg) : Prop :=
  exists r out kept, asks db start group i r /\ cli n r = Ok out /\
    (forall m, In m out -> m_key m <> None) /\
    exactly (fun m => exists dims, sql_metric m dims) out kept /\
    Forall2 (load_of vzero db sqlKey tokKey) kept avgs.
(** All half days of all databases are asked for, both by SQL and by tokenized SQL, and
    all answers are taken, in order *)
Definition week_fetched {V} (vzero : V -> bool) (cli : @pi_client V) (dbs : list rds_db) (start : gtime)
  (avgs tavgs : list (@load_avg V)) : Prop :=
  exists A T : nat -> nat -> list load_avg,
    (forall d db i, nth_error dbs d = Some db -> i < 14 ->
       answered vzero cli (28 * d + 2 * i) db start (lit "db.sql") (lit "db.sql.statement") (lit "db.sql.tokenized_id") i (A d i) /\
       answered vzero cli (28 * d + 2 * i + 1) db start (lit "db.sql_tokenized") (lit "db.sql_tokenized.statement")
         (lit "db.sql_tokenized.id") i (T d i)) /\
    avgs = flat_map (fun d => flat_map (A d) (seq 0 14)) (seq 0 (length dbs)) /\
    tavgs = flat_map (fun d => flat_map (T d) (seq 0 14)) (seq 0 (length dbs)).
