(** What the log of a dig command has to say. *)
From Coq Require Import String List NArith ZArith QArith Bool Lia Arith.
From Verif Require Import Base Dec ExplainTree Otel Pi HandOver PathsSpec DigProgram Diary DiarySpec DigDiary.
Import ListNotations.
Local Open Scope nat_scope.

Definition lines_at (l : level) (d : list (entry exchange)) : list gostring :=
  flat_map (fun p => match fst p, l with Debug, Debug | Info, Info | Error, Error => [snd p] | _, _ => [] end) (Diary.said d).
(** What was asked, and the reports *)
Definition finds_of (d : list (entry exchange)) : list Otel.query :=
  flat_map (fun e => match e with existT _ (GFind q) _ => [q] | _ => [] end) (acts d).
Definition metrics_of (d : list (entry exchange)) : list Pi.request :=
  flat_map (fun e => match e with existT _ (GMetrics rq) _ => [rq] | _ => [] end) (acts d).
Definition reports_of (d : list (entry exchange)) : list (gostring * build_option) :=
  flat_map (fun e => match e with existT _ (GCreate p b) _ => [(p, b)] | _ => [] end) (acts d).
Definition getting (t : gostring) : gostring := of_string "Getting data for " ++ t.

(** Jaeger: the span of time, then a line right before each request with its start *)
Definition span_told (parse_time : gostring -> outcome Z) (fmt fmt_end : Z -> gostring) (now : Z) (fl : jaeger_flags) (line : gostring) : Prop :=
  exists start ms, (jf_start fl = [] /\ start = (now - 86400000000000)%Z \/ jf_start fl <> [] /\ parse_time (jf_start fl) = Ok start) /\ whole (jf_millis fl) ms /\
    line = of_string "Dig traces from " ++ fmt start ++ of_string " to " ++ fmt_end (Z.min now (start + 86400000000000)) ++
           of_string " taking more than " ++ ms ++ of_string " millis)".
Definition find_at (t : Z) (q : Otel.query) : Prop := Otel.q_min q = (t / 1000000000)%Z /\ Otel.q_max q = ((t + 1800000000000) / 1000000000)%Z.
Definition finds_told (fmt : Z -> gostring) (head tail : list gostring) (d : list (entry exchange)) : Prop :=
  (exists times, Forall2 find_at times (finds_of d) /\ lines_at Info d = head ++ map (fun t => getting (fmt t)) times ++ tail) /\
  (forall p q x rest, d = p ++ Did (DigProgram.said (GFind q) x) :: rest -> exists p' t, p = p' ++ [Said Info (getting (fmt t))] /\ find_at t q).
(** The traces of the report *)
Definition trace_told (v : vm_trace) (line : gostring) : Prop :=
  line = of_string "[" ++ vt_id v ++ of_string "] """ ++ v_name (t_val (vt_root v)) ++ of_string """ at " ++ v_service (t_val (vt_root v)).
Definition traces_told (p : gostring) (b : build_option) (d : list (entry exchange)) : Prop :=
  exists jd before ls after x, b = BoJaeger jd /\ Forall2 trace_told (jd_slow jd) ls /\
    d = before ++ map (Said Debug) (of_string "found traces: ----start" :: ls ++ [of_string "found traces: ----end "]) ++ Did (DigProgram.said (GCreate p b) x) :: after.

(** Performance Insights: a line right before each request by statement, and behind that
    the request for the same by normalized statement *)
Definition by_sql (rq : Pi.request) : bool := seqb (rq_group rq) (of_string "db.sql").
Definition metrics_told (fmt : gtime -> gostring) (tail : list gostring) (d : list (entry exchange)) : Prop :=
  lines_at Info d = map (fun rq => getting (fmt (rq_start rq))) (filter by_sql (metrics_of d)) ++ tail /\
  (forall p rq x rest, d = p ++ Did (DigProgram.said (GMetrics rq) x) :: rest ->
     exists p' e, p = p' ++ [e] /\
     ((rq_group rq = of_string "db.sql" /\ e = Said Info (getting (fmt (rq_start rq)))) \/
      (rq_group rq = of_string "db.sql_tokenized" /\ exists rq' x', e = Did (DigProgram.said (GMetrics rq') x') /\ rq_group rq' = of_string "db.sql" /\
         rq_identifier rq' = rq_identifier rq /\ rq_start rq' = rq_start rq /\ rq_end rq' = rq_end rq))).
