(** The dig commands from start to end, against services with a state: everything sent,
    the answers, and the report written. *)
From Coq Require Import String List NArith ZArith QArith Bool Lia Arith.
From Verif Require Import Base ExplainTree Lib Otel Pi HandOver.
From Verif Require ConnText.
Import ListNotations.
Local Open Scope nat_scope.

(** What leaves the program ... *)
(** the calls of jaeger.go:96-139 and performance_insights.go:46-96 that leave the program *)
Inductive dig_act :=
| GDial (address : gostring)                    (* grpc.DialContext *)
| GFind (q : Otel.query)                        (* FindTraces, and Recv until the end *)
| GDescribe (engines : list gostring)           (* DescribeDBInstances *)
| GMetrics (rq : Pi.request)                    (* GetResourceMetrics *)
| GCreate (path : gostring) (b : build_option)  (* html.CreateHtml *)
| GHangUp.                                      (* conn.Close *)
(** ... and what comes back: an error, or the answer or an error *)
(** the other side; no lines in /repo *)
Definition reply (a : dig_act) : Type :=
  match a with
  | GDial _ => option gostring
  | GFind _ => outcome (list (list resource_spans))
  | GDescribe _ => outcome (list instance)
  | GMetrics _ => outcome (list (@metric Q))
  | GCreate _ _ => option gostring
  | GHangUp => option gostring
  end.
(** the other side; no lines in /repo *)
Definition exchange : Type := {a : dig_act & reply a}.
(** the other side; no lines in /repo *)
Definition said (a : dig_act) (x : reply a) : exchange := existT reply a x.
(** The services and the file system: any states, any answers *)
(** the other side; no lines in /repo *)
Definition services (W : Type) : Type := W -> forall a : dig_act, W * reply a.

Section Run.
  Context {W : Type} (sv : services W).
  (** one step after another, stopping at an error; no lines in /repo of its own *)
  Definition dprog (A : Type) : Type := W -> list exchange * W * outcome A.
  (** one step after another, stopping at an error; no lines in /repo of its own *)
  Definition dgive {A} (x : outcome A) : dprog A := fun w => ([], w, x).
  (** one step after another, stopping at an error; no lines in /repo of its own *)
  Definition dthen {A B} (p : dprog A) (f : A -> dprog B) : dprog B := fun w =>
    let '(tr, w1, r) := p w in
    match r with
    | Ok x => let '(tr', w2, r') := f x w1 in (tr ++ tr', w2, r')
    | Err m => (tr, w1, Err m)
    | Panic => (tr, w1, Panic)
    end.
  (** The only way out *)
  (** one step after another, stopping at an error; no lines in /repo of its own *)
  Definition perform (a : dig_act) : dprog (reply a) := fun w =>
    let '(w1, x) := sv w a in ([said a x], w1, Ok x).
  (** an error value or nil; no lines in /repo of its own *)
  Definition failed_with (o : option gostring) : outcome unit := match o with None => Ok tt | Some m => Err m end.

  (** ** cmd/app/dig/jaeger.go *)
  Section Jaeger.
    (** The orders of maps and sorts in this run; [parse_time] is time.Parse of RFC3339
        to nanoseconds since the epoch *)
    Context (ords : nat -> nat -> list bytes -> list bytes) (srt : list (tree node) -> list (tree node))
      (ordc : list (gostring * Z) -> list (gostring * Z))
      (ordv ordt : nat -> list (gostring * Z) -> list (gostring * Z)) (srtt : list (Z * Z) -> list (Z * Z))
      (parse_time : gostring -> outcome Z).
    (** jaeger.go:48-59, set at 34-38 *)
    Record jaeger_flags := {
      jf_service : gostring; jf_millis : Z; jf_threshold : Z; jf_count : Z; jf_start : gostring; jf_output : gostring }.
    Context (env : gostring -> gostring) (now : Z) (fl : jaeger_flags).

    (** jaeger.go:61-94 prepare *)
    Definition jaeger_prepare : outcome ((Z * Z) * (gostring * gostring)) :=
      do given <- (match jf_start fl with
                   | [] => Ok None
                   | s => match parse_time s with
                          | Ok t => Ok (Some t)
                          | Err m => Err (lit "invalid format at StartAt: " ++ m)
                          | Panic => Panic
                          end
                   end);
      do ui <- ConnText.get_env env (lit "JAEGER_UI_URL");
      do address <- ConnText.get_env env (lit "JAEGER_GRPC_ADDRESS");
      Ok (dig_span now given, (ui, address)).
    (** otel/jaeger/trace_fetcher.go:25-43 *)
    Fixpoint fetch_all (size : Z) (dur : Z) (j : nat) (times : list Z) : dprog (list (tree node)) :=
      match times with
      | [] => dgive (Ok [])
      | start :: times' =>
          dthen (perform (GFind (query_at size (jf_service fl) dur start))) (fun a =>
          dthen (dgive (do traces <- a; find_compacted (ords j) srt 0 traces)) (fun cs =>
          dthen (fetch_all size dur (S j) times') (fun r => dgive (Ok (cs ++ r)))))
      end.
    (** jaeger.go:141-162 createHTML; the [k]th conversion has orders of its own *)
    Fixpoint views (k : nat) (l : list (tree node)) : list vm_trace :=
      match l with
      | [] => []
      | t :: l' => to_compact_view (ordv k) (ordt k) srtt t :: views (S k) l'
      end.
    (** jaeger.go:141-162 *)
    Definition jaeger_html (ui : gostring) (slow same : list (tree node)) : build_option :=
      BoJaeger {| jd_ui := ui; jd_slow_ms := jf_millis fl; jd_same := jf_threshold fl;
                  jd_slow := views 0 slow; jd_same_service := views (length slow) same |}.
    (** jaeger.go:106-139 dig.  At most 48 half hours; [None] cannot be. *)
    Definition jaeger_dig (ui : gostring) (start end_ : Z) : dprog unit :=
      match generate_time_ranges 48 start end_ half_hour with
      | None => dgive Panic
      | Some times =>
          dthen (fetch_all (i32 (jf_count fl)) (millis (jf_millis fl)) 0 times) (fun traces =>
          dthen (dgive (pick_slow 100 traces)) (fun slow =>
          let same := pick_same_service ordc (jf_threshold fl) traces in
          match jf_output fl with
          | [] => dgive (Ok tt)
          | path => dthen (perform (GCreate path (jaeger_html ui slow same))) (fun e => dgive (failed_with e))
          end))
      end.
    (** infra/jaeger/client.go:16-33 Open and jaeger.go:96-104 run: what Close answers is
        dropped *)
    Definition jaeger_run (address ui : gostring) (start end_ : Z) : dprog unit :=
      dthen (perform (GDial address)) (fun e =>
      match e with
      | Some m => dgive (Err (lit "cannot connect to " ++ address ++ lit ": " ++ m))
      | None => fun w =>
          let '(tr, w1, r) := jaeger_dig ui start end_ w in
          let '(w2, x) := sv w1 GHangUp in (tr ++ [said GHangUp x], w2, r)
      end).
    (** jaeger.go:22-29 *)
    Definition jaeger_main : dprog unit :=
      dthen (dgive jaeger_prepare) (fun p =>
      jaeger_run (snd (snd p)) (fst (snd p)) (fst (fst p)) (snd (fst p))).
  End Jaeger.

  (** ** cmd/db/dig/performance_insights.go *)
  Section Insights.
    (** float64 addition and comparison; [vzero]: the value is 0; time.Parse of RFC3339 *)
    Context (vadd : Q -> Q -> Q) (vlt : Q -> Q -> bool) (vzero : Q -> bool) (parse_time : gostring -> outcome gtime)
      (now : gtime) (start_text output : gostring).
    (** infra/aws/performance_insights.go:51-74 with 31-49 *)
    Definition half_day_loads (db : rds_db) (start : gtime) (group sqlKey tokKey : gostring) : dprog (list (@load_avg Q)) :=
      dthen (perform (GMetrics (half_day_request db start group))) (fun a =>
      dgive (do out <- (match a with
                        | Err m => Err (lit "failed to call GetResourceMetrics of PerformanceInsights: " ++ m)
                        | o => o
                        end);
             convert_metrics vzero db out sqlKey tokKey)).
    (** performance_insights.go:64-81 *)
    Fixpoint db_loads (k : nat) (db : rds_db) (current : gtime) : dprog (list (@load_avg Q) * list (@load_avg Q)) :=
      match k with
      | 0 => dgive (Ok ([], []))
      | S k' =>
          dthen (half_day_loads db current (lit "db.sql") (lit "db.sql.statement") (lit "db.sql.tokenized_id")) (fun avgs =>
          dthen (half_day_loads db current (lit "db.sql_tokenized") (lit "db.sql_tokenized.statement") (lit "db.sql_tokenized.id")) (fun tavgs =>
          dthen (db_loads k' db (tadd current (12 * hour))) (fun r => dgive (Ok (avgs ++ fst r, tavgs ++ snd r)))))
      end.
    (** performance_insights.go:63-82 *)
    Fixpoint all_loads (dbs : list rds_db) (start : gtime) : dprog (list (@load_avg Q) * list (@load_avg Q)) :=
      match dbs with
      | [] => dgive (Ok ([], []))
      | db :: dbs' =>
          dthen (db_loads 14 db start) (fun a =>
          dthen (all_loads dbs' start) (fun r => dgive (Ok (fst a ++ fst r, snd a ++ snd r))))
      end.
    (** performance_insights.go:46-96 dig.  The configuration of the AWS client (run,
        34-44) is not modelled.  171 rounds are enough; [None] cannot be. *)
    Definition pi_main : dprog unit :=
      dthen (perform (GDescribe [lit "mysql"])) (fun a =>
      dthen (dgive (match a with
                    | Ok is => rds_dbs is
                    | Err m => Err (lit "failed to describe db instances: " ++ m)
                    | Panic => Panic
                    end)) (fun dbs =>
      dthen (dgive (match start_text with
                    | [] => Ok (tadd now (- week))
                    | s => match parse_time s with
                           | Ok t => Ok t
                           | Err m => Err (lit "Invalid format: " ++ m)
                           | Panic => Panic
                           end
                    end)) (fun start =>
      dthen (all_loads dbs start) (fun r =>
      match convert_loads vadd vlt 171 start (tadd start week) (fst r),
            convert_loads vadd vlt 171 start (tadd start week) (snd r) with
      | Some rows, Some trows =>
          dthen (perform (GCreate output (BoPi (Some rows) (Some trows)))) (fun e => dgive (failed_with e))
      | _, _ => dgive Panic
      end)))).
  End Insights.
End Run.
