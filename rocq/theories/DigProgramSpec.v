(** What a user may rely on when letting the dig commands talk to Jaeger and AWS: what is
    asked, in which order, and what the report shows of the answers. *)
From Coq Require Import String List NArith ZArith QArith Bool Lia Arith Permutation.
From Verif Require Import Base IndexBuild ExplainTree ExplainSpec Otel OtelSpec Pi PiSpec HandOver HandOverSpec TraceDiagramSpec ProgramSpec DigProgram DigPage.
Import ListNotations.
Local Open Scope nat_scope.

(** Every reply is what the services answered in the state that the exchanges before had
    left; the last state is [w']. *)
Fixpoint answered_by {W} (sv : services W) (w : W) (tr : list exchange) (w' : W) : Prop :=
  match tr with
  | [] => w' = w
  | existT _ a x :: tr' => snd (sv w a) = x /\ answered_by sv (fst (sv w a)) tr' w'
  end.

(** ** Jaeger *)
Section Jaeger.
  Context (parse_time : gostring -> outcome Z) (env : gostring -> gostring) (now : Z) (fl : jaeger_flags).

  (** From the time given or a day ago, for a day but not beyond now *)
  Definition time_span (s e : Z) : Prop :=
    (jf_start fl = [] /\ s = now - 86400000000000 \/ jf_start fl <> [] /\ parse_time (jf_start fl) = Ok s)%Z /\
    e = Z.min now (s + 86400000000000).
  Definition unusable : Prop :=
    jf_start fl <> [] /\ failed (parse_time (jf_start fl)) \/
    env (lit "JAEGER_UI_URL") = [] \/ env (lit "JAEGER_GRPC_ADDRESS") = [].

  (** The question for the [i]th half hour *)
  Definition asks_half_hour (s : Z) (i : nat) (q : Otel.query) : Prop :=
    q_service q = jf_service fl /\ q_num q = jf_count fl /\
    (q_min q * 1000000000 <= s + Z.of_nat i * 1800000000000 < (q_min q + 1) * 1000000000)%Z /\ (q_max q = q_min q + 1800)%Z /\
    (fst (q_duration q) * 1000000000 + snd (q_duration q) = jf_millis fl * 1000000 /\ -1000000000 < snd (q_duration q) < 1000000000)%Z.
  Definition answers : Type := list (Otel.query * outcome (list (list resource_spans))).
  Definition asked (s : Z) (l : answers) : Prop :=
    forall i q a, nth_error l i = Some (q, a) -> asks_half_hour s i q.
  Definition finds (l : answers) : list exchange := map (fun p => said (GFind (fst p)) (snd p)) l.
  (** An answer that can be read *)
  Definition readable (a : outcome (list (list resource_spans))) : Prop :=
    exists traces, a = Ok traces /\ Forall complete_input traces.
  Definition received (l : answers) : list (list resource_spans) :=
    flat_map (fun p => match snd p with Ok traces => traces | _ => [] end) l.

  (** The conversation; [report] says what is written for what was received *)
  Context (report : list (list resource_spans) -> build_option -> Prop).
  Inductive jaeger_talk : list exchange -> outcome unit -> Prop :=
  | jt_refused : forall r, unusable -> failed r -> jaeger_talk [] r
  | jt_unreachable : forall m, ~ unusable ->
      jaeger_talk [said (GDial (env (lit "JAEGER_GRPC_ADDRESS"))) (Some m)]
        (Err (lit "cannot connect to " ++ env (lit "JAEGER_GRPC_ADDRESS") ++ lit ": " ++ m))
  | jt_broken : forall s e l q a x r, ~ unusable -> time_span s e ->
      asked s (l ++ [(q, a)]) -> (s + Z.of_nat (length l) * 1800000000000 < e)%Z ->
      Forall (fun p => readable (snd p)) l -> ~ readable a -> r = match a with Err m => Err m | _ => Panic end ->
      jaeger_talk (said (GDial (env (lit "JAEGER_GRPC_ADDRESS"))) None :: finds (l ++ [(q, a)]) ++ [said GHangUp x]) r
  | jt_done : forall s e l x end_ r, ~ unusable -> time_span s e -> asked s l ->
      (forall i, i < length l <-> (s + Z.of_nat i * 1800000000000 < e)%Z) ->
      Forall (fun p => readable (snd p)) l ->
      (jf_output fl = [] /\ end_ = [] /\ r = Ok tt \/
       jf_output fl <> [] /\ exists b m, report (received l) b /\ end_ = [said (GCreate (jf_output fl) b) m] /\
         r = match m with None => Ok tt | Some m => Err m end) ->
      jaeger_talk (said (GDial (env (lit "JAEGER_GRPC_ADDRESS"))) None :: finds l ++ end_ ++ [said GHangUp x]) r.
End Jaeger.

(** The trees of what was received *)
Definition forest_of (input : list resource_spans) (ts : list (tree node)) : Prop :=
  Forall (span_tree input) ts /\ NoDup (map id_of ts) /\ (forall id, In id (map id_of ts) <-> top_span input id) /\
  NoDup (flat_map ids ts) /\ (forall id, In id (flat_map ids ts) <-> rooted input id).
Definition trees_of (inputs : list (list resource_spans)) (cs : list (tree node)) : Prop :=
  exists tss, Forall2 forest_of inputs tss /\ Forall2 compacted_of (concat tss) cs.
(** The view of a tree: each span with its name, service and milliseconds *)
Inductive viewed : tree node -> tree vm_span -> Prop :=
| viewed_node : forall n v cs vs,
    v_name v = s_name (n_span n) -> v_service v = s_service (n_span n) ->
    (v_start v * 1000000 <= s_start (n_span n) < (v_start v + 1) * 1000000)%Z ->
    (v_end v * 1000000 <= s_end (n_span n) < (v_end v + 1) * 1000000)%Z ->
    Forall2 viewed cs vs -> viewed (Node n cs) (Node v vs).
(** The view of a trace: its id in hexadecimal, how often the service most accessed is
    accessed, the service that took most time ([srt] sorts times, see C40), its tree *)
Definition hex_text (l : bytes) (s : gostring) : Prop :=
  length s = 2 * length l /\
  forall i b, nth_error l i = Some b -> exists hi lo dhi dlo,
    b = (16 * hi + lo)%N /\ (hi < 16)%N /\ (lo < 16)%N /\
    nth_error (lit "0123456789abcdef") (N.to_nat hi) = Some dhi /\ nth_error s (2 * i) = Some dhi /\
    nth_error (lit "0123456789abcdef") (N.to_nat lo) = Some dlo /\ nth_error s (2 * i + 1) = Some dlo.
Definition trace_viewed (srt : list (Z * Z) -> list (Z * Z)) (t : tree node) (v : vm_trace) : Prop :=
  (Forall (fun b => (b < 256)%N) (s_trace_id (span_at t)) -> hex_text (s_trace_id (span_at t)) (vt_id v)) /\
  viewed t (vt_root v) /\
  (exists svc, accesses svc t = vt_count v) /\ (forall svc, (accesses svc t <= vt_count v)%Z) /\
  (forall svc, has_service svc (spans_of t) ->
    (service_total (consumed_time srt) svc (spans_of t) <= service_total (consumed_time srt) (vt_service v) (spans_of t))%Z).
(** The report: the 100 longest traces, and those with a service accessed more often
    than the threshold *)
Definition jaeger_report (srt : list (Z * Z) -> list (Z * Z)) (ui : gostring) (fl : jaeger_flags)
    (inputs : list (list resource_spans)) (b : build_option) : Prop :=
  exists cs slow others same d, trees_of inputs cs /\
    Permutation (slow ++ others) cs /\ length slow = Nat.min 100 (length cs) /\
    (forall i j a b, i < j -> nth_error slow i = Some a -> nth_error slow j = Some b -> (took b <= took a)%Z) /\
    (forall p o, In p slow -> In o others -> (took o <= took p)%Z) /\
    sublist_where (fun t => exists svc, (jf_threshold fl < accesses svc t)%Z) cs same /\
    b = BoJaeger d /\ jd_ui d = ui /\ jd_slow_ms d = jf_millis fl /\ jd_same d = jf_threshold fl /\
    Forall2 (trace_viewed srt) slow (jd_slow d) /\ Forall2 (trace_viewed srt) same (jd_same_service d).

(** ** The page *)
(** A row for a trace: the milliseconds it took, its link below the UI, the calls of its
    diagram if its services can be drawn *)
Definition row_for (srt : list (Z * Z) -> list (Z * Z)) (base : gostring) (t : tree node) (r : shown_row) : Prop :=
  (Forall (fun b => (b < 256)%N) (s_trace_id (span_at t)) -> hex_text (s_trace_id (span_at t)) (sr_id r)) /\
  (Z.abs (sr_millis r * 1000000 - (s_end (span_at t) - s_start (span_at t))) < 1000000)%Z /\
  (exists svc, accesses svc t = sr_count r) /\ (forall svc, (accesses svc t <= sr_count r)%Z) /\
  (forall svc, has_service svc (spans_of t) ->
    (service_total (consumed_time srt) svc (spans_of t) <= service_total (consumed_time srt) (sr_service r) (spans_of t))%Z) /\
  sr_link r = base ++ lit "/trace/" ++ sr_id r /\
  (t_children t <> [] -> Forall drawable (span_services t) -> diagram_calls (sr_diagram r) = Some (span_calls t)).
(** A table with a row for each of the traces, the longest first *)
Definition table_of (srt : list (Z * Z) -> list (Z * Z)) (base : gostring) (ts : list (tree node)) (rows : list shown_row) : Prop :=
  (exists ts', Permutation ts ts' /\ Forall2 (row_for srt base) ts' rows) /\
  forall i j a b, i < j -> nth_error rows i = Some a -> nth_error rows j = Some b -> (sr_millis b <= sr_millis a)%Z.
(** What the opened report of the command shows of what was received *)
Definition jaeger_shown (srt : list (Z * Z) -> list (Z * Z)) (base : gostring) (fl : jaeger_flags)
    (inputs : list (list resource_spans)) (p : jaeger_tables) : Prop :=
  exists cs slow others same, trees_of inputs cs /\
    Permutation (slow ++ others) cs /\ length slow = Nat.min 100 (length cs) /\
    (forall p o, In p slow -> In o others -> (took o <= took p)%Z) /\
    sublist_where (fun t => exists svc, (jf_threshold fl < accesses svc t)%Z) cs same /\
    table_of srt base slow (jt_slow p) /\ table_of srt base same (jt_same_rows p) /\
    jt_slow_ms p = jf_millis fl /\ jt_same p = (jf_threshold fl, jf_millis fl).

(** ** A Jaeger server that keeps traces *)
(** A trace fits a question: one of its spans is of the service, begins in the time asked
    for, both ends included, and takes long enough. *)
Definition fits (q : Otel.query) (tr : list resource_spans) : Prop :=
  exists sp rs, In (sp, rs) (all_spans tr) /\ service_is rs (q_service q) /\
    (q_min q * 1000000000 <= r_start sp <= q_max q * 1000000000)%Z /\
    (fst (q_duration q) * 1000000000 + snd (q_duration q) <= r_end sp - r_start sp)%Z.
(** All that fit are answered, which takes that no more of them are kept than asked for. *)
Definition keeps (store : list (list resource_spans)) (l : answers) : Prop :=
  forall q a, In (q, a) l -> exists traces, a = Ok traces /\ sublist_where (fits q) store traces.
(** A span of the service the user wants to see: it begins in the time dug, by whole
    seconds, and is not shorter than given *)
Definition wanted (fl : jaeger_flags) (s e : Z) (tr : list resource_spans) (x : Z) : Prop :=
  exists sp rs, In (sp, rs) (all_spans tr) /\ service_is rs (jf_service fl) /\ r_start sp = x /\
    (s <= x)%Z /\ (x / 1000000000 < e / 1000000000)%Z /\ (jf_millis fl * 1000000 <= r_end sp - x)%Z.

(** ** Performance Insights *)
Section Insights.
  Context (vadd : Q -> Q -> Q) (vlt : Q -> Q -> bool) (vzero : Q -> bool)
    (parse_time : gostring -> outcome gtime) (now : gtime) (start_text output : gostring).

  (** From the time given or a week ago *)
  Definition week_from (start : gtime) : Prop :=
    start_text = [] /\ start = {| t_ns := t_ns now - 604800000000000; t_loc := t_loc now |} \/
    start_text <> [] /\ parse_time start_text = Ok start.
  (** The databases of an answer, each with its names *)
  Definition listed (is : list instance) (dbs : list rds_db) : Prop :=
    Forall2 (fun i db => i = (Some (db_name db), Some (db_resource db))) is dbs.
  Definition loads_answers : Type := list (Pi.request * outcome (list (@metric Q))).
  Definition fetches (l : loads_answers) : list exchange := map (fun p => said (GMetrics (fst p)) (snd p)) l.
  (** The questions: for each database, for each half day, first by SQL, then by tokenized SQL *)
  Definition loads_asked (dbs : list rds_db) (start : gtime) (l : loads_answers) : Prop :=
    forall n rq a, nth_error l n = Some (rq, a) ->
      exists d db i tok, nth_error dbs d = Some db /\ i < 14 /\
        (n = 28 * d + 2 * i /\ tok = lit "db.sql" \/ n = 28 * d + 2 * i + 1 /\ tok = lit "db.sql_tokenized") /\
        PiSpec.asks db start tok i rq.
  (** An answer that can be read: every metric has a key *)
  Definition keyed (a : outcome (list (@metric Q))) : Prop :=
    exists out, a = Ok out /\ forall m, In m out -> m_key m <> None.
  (** The report: the loads of the answers per hour *)
  Definition pi_report (dbs : list rds_db) (start : gtime) (l : loads_answers) (b : build_option) : Prop :=
    exists avgs tavgs rows trows,
      (forall cli, (forall n rq a, nth_error l n = Some (rq, a) -> cli n rq = a) -> week_fetched vzero cli dbs start avgs tavgs) /\
      hourly vadd vlt start {| t_ns := t_ns start + 604800000000000; t_loc := t_loc start |} avgs rows /\
      hourly vadd vlt start {| t_ns := t_ns start + 604800000000000; t_loc := t_loc start |} tavgs trows /\
      length rows = 169 /\ length trows = 169 /\ b = BoPi (Some rows) (Some trows).

  Inductive pi_talk : list exchange -> outcome unit -> Prop :=
  | pt_unlisted : forall a r, (forall is dbs, a = Ok is -> ~ listed is dbs) ->
      r = match a with Err m => Err (lit "failed to describe db instances: " ++ m) | _ => Panic end ->
      pi_talk [said (GDescribe [lit "mysql"]) a] r
  | pt_bad_start : forall is dbs r, listed is dbs -> start_text <> [] -> failed (parse_time start_text) -> failed r ->
      pi_talk [said (GDescribe [lit "mysql"]) (Ok is)] r
  | pt_broken : forall is dbs start l rq a r, listed is dbs -> week_from start -> loads_asked dbs start (l ++ [(rq, a)]) ->
      Forall (fun p => keyed (snd p)) l -> ~ keyed a ->
      r = match a with Err m => Err (lit "failed to call GetResourceMetrics of PerformanceInsights: " ++ m) | _ => Panic end ->
      pi_talk (said (GDescribe [lit "mysql"]) (Ok is) :: fetches (l ++ [(rq, a)])) r
  | pt_done : forall is dbs start l b m r, listed is dbs -> week_from start -> loads_asked dbs start l ->
      length l = 28 * length dbs -> Forall (fun p => keyed (snd p)) l -> pi_report dbs start l b ->
      r = match m with None => Ok tt | Some m => Err m end ->
      pi_talk (said (GDescribe [lit "mysql"]) (Ok is) :: fetches l ++ [said (GCreate output b) m]) r.
End Insights.
(** The load [v] at [t] is part of what is shown for the SQL in the hour of [t]. *)
Definition load_shown (vlt : Q -> Q -> bool) (rows : list (@time_load Q)) (name sql : gostring) (t : gtime) (v : Q) : Prop :=
  exists row d s, In row rows /\ (t_ns (tl_time row) <= t_ns t < t_ns (tl_time row) + 3600000000000)%Z /\
    In d (tl_dbs row) /\ dl_name d = name /\ In s (dl_sqls d) /\ sl_sql s = sql /\ vlt (sl_max s) v = false.
