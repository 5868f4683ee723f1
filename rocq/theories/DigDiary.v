(** The dig commands with the lines they log, and how the answer of Jaeger is received. *)
From Coq Require Import String List NArith ZArith QArith Bool Lia Arith.
From Verif Require Import Base Dec ExplainTree Lib Otel Pi HandOver Paths DigProgram Diary.
From Verif Require ConnText.
Import ListNotations.
Local Open Scope nat_scope.

Section Run.
  Context {W : Type} (sv : services W).
  (** one step after another, with the lines between; no lines in /repo of its own *)
  Definition dnoisy (A : Type) : Type := W -> list (entry exchange) * W * outcome A.
  (** one step after another, with the lines between; no lines in /repo of its own *)
  Definition dquiet {A} (p : @dprog W A) : dnoisy A := fun w => let '(tr, w1, r) := p w in (map Did tr, w1, r).
  (** one step after another, with the lines between; no lines in /repo of its own *)
  Definition dsay (l : list (level * gostring)) : dnoisy unit := fun w => (map (fun p => Said (fst p) (snd p)) l, w, Ok tt).
  (** one step after another, with the lines between; no lines in /repo of its own *)
  Definition dnthen {A B} (p : dnoisy A) (f : A -> dnoisy B) : dnoisy B := fun w =>
    let '(d, w1, r) := p w in
    match r with
    | Ok x => let '(d', w2, r') := f x w1 in (d ++ d', w2, r')
    | Err m => (d, w1, Err m)
    | Panic => (d, w1, Panic)
    end.
  (** what os.Getwd gives *)
  Context (wd : option gostring).

  (** ** cmd/app/dig/jaeger.go *)
  Section Jaeger.
    Context (ords : nat -> nat -> list bytes -> list bytes) (srt : list (tree node) -> list (tree node))
      (ordc : list (gostring * Z) -> list (gostring * Z))
      (ordv ordt : nat -> list (gostring * Z) -> list (gostring * Z)) (srtt : list (Z * Z) -> list (Z * Z))
      (parse_time : gostring -> outcome Z).
    (** time.Format of RFC3339; the end is in the zone of the clock when it is now *)
    Context (fmt fmt_end : Z -> gostring).
    Context (env : gostring -> gostring) (now : Z) (fl : jaeger_flags).
    (** otel/jaeger/trace_fetcher.go:25-43 *)
    Fixpoint fetch_told (size : Z) (dur : Z) (j : nat) (times : list Z) : dnoisy (list (tree node)) :=
      match times with
      | [] => dquiet (dgive (Ok []))
      | start :: times' =>
          dnthen (dsay [(Info, lit "Getting data for " ++ fmt start)]) (fun _ =>
          dnthen (dquiet (perform sv (GFind (query_at size (jf_service fl) dur start)))) (fun a =>
          dnthen (dquiet (dgive (do traces <- a; find_compacted (ords j) srt 0 traces))) (fun cs =>
          dnthen (fetch_told size dur (S j) times') (fun r => dquiet (dgive (Ok (cs ++ r)))))))
      end.
    (** jaeger.go:118-126 *)
    Definition trace_line (t : tree node) : gostring :=
      let s := n_span (t_val t) in
      lit "[" ++ hex (s_trace_id s) ++ lit "] """ ++ s_name s ++ lit """ at " ++ s_service s.
    (** jaeger.go:118-126 *)
    Definition trace_lines (slow : list (tree node)) : list (level * gostring) :=
      map (fun t => (Debug, t)) (lit "found traces: ----start" :: map trace_line slow ++ [lit "found traces: ----end "]).
    (** jaeger.go:106-139 dig *)
    Definition jaeger_dig_told (ui : gostring) (start end_ : Z) : dnoisy unit :=
      dnthen (dsay [(Info, lit "Dig traces from " ++ fmt start ++ lit " to " ++ fmt_end end_ ++ lit " taking more than " ++ int_text (jf_millis fl) ++ lit " millis)")]) (fun _ =>
      match generate_time_ranges 48 start end_ half_hour with
      | None => dquiet (dgive Panic)
      | Some times =>
          dnthen (fetch_told (i32 (jf_count fl)) (millis (jf_millis fl)) 0 times) (fun traces =>
          dnthen (dquiet (dgive (pick_slow 100 traces))) (fun slow =>
          let same := pick_same_service ordc (jf_threshold fl) traces in
          dnthen (dsay (trace_lines slow)) (fun _ =>
          match jf_output fl with
          | [] => dquiet (dgive (Ok tt))
          | path =>
              dnthen (dquiet (perform sv (GCreate path (jaeger_html ordv ordt srtt fl ui slow same)))) (fun e =>
              dnthen (dquiet (dgive (failed_with e))) (fun _ =>
              dsay (output_lines wd path)))
          end)))
      end).
    (** infra/jaeger/client.go:16-33, jaeger.go:96-104 *)
    Definition jaeger_run_told (address ui : gostring) (start end_ : Z) : dnoisy unit :=
      dnthen (dquiet (perform sv (GDial address))) (fun e =>
      match e with
      | Some m => dquiet (dgive (Err (lit "cannot connect to " ++ address ++ lit ": " ++ m)))
      | None => fun w =>
          let '(d, w1, r) := jaeger_dig_told ui start end_ w in
          let '(w2, x) := sv w1 GHangUp in (d ++ [Did (DigProgram.said GHangUp x)], w2, r)
      end).
    (** jaeger.go:22-29 *)
    Definition jaeger_told : dnoisy unit :=
      dnthen (dquiet (dgive (jaeger_prepare parse_time env now fl))) (fun p =>
      jaeger_run_told (snd (snd p)) (fst (snd p)) (fst (fst p)) (snd (fst p))).
  End Jaeger.

  (** ** cmd/db/dig/performance_insights.go *)
  Section Insights.
    Context (vadd : Q -> Q -> Q) (vlt : Q -> Q -> bool) (vzero : Q -> bool) (parse_time : gostring -> outcome gtime)
      (fmt : gtime -> gostring) (now : gtime) (start_text output : gostring).
    (** performance_insights.go:65-81 *)
    Fixpoint db_loads_told (k : nat) (db : rds_db) (current : gtime) : dnoisy (list (@load_avg Q) * list (@load_avg Q)) :=
      match k with
      | 0 => dquiet (dgive (Ok ([], [])))
      | S k' =>
          dnthen (dsay [(Info, lit "Getting data for " ++ fmt current)]) (fun _ =>
          dnthen (dquiet (half_day_loads sv vzero db current (lit "db.sql") (lit "db.sql.statement") (lit "db.sql.tokenized_id"))) (fun avgs =>
          dnthen (dquiet (half_day_loads sv vzero db current (lit "db.sql_tokenized") (lit "db.sql_tokenized.statement") (lit "db.sql_tokenized.id"))) (fun tavgs =>
          dnthen (db_loads_told k' db (tadd current (12 * hour))) (fun r => dquiet (dgive (Ok (avgs ++ fst r, tavgs ++ snd r)))))))
      end.
    (** performance_insights.go:63-82 *)
    Fixpoint all_loads_told (dbs : list rds_db) (start : gtime) : dnoisy (list (@load_avg Q) * list (@load_avg Q)) :=
      match dbs with
      | [] => dquiet (dgive (Ok ([], [])))
      | db :: dbs' =>
          dnthen (db_loads_told 14 db start) (fun a =>
          dnthen (all_loads_told dbs' start) (fun r => dquiet (dgive (Ok (fst a ++ fst r, snd a ++ snd r)))))
      end.
    (** performance_insights.go:46-96 *)
    Definition pi_told : dnoisy unit :=
      dnthen (dquiet (perform sv (GDescribe [lit "mysql"]))) (fun a =>
      dnthen (dquiet (dgive (match a with
                    | Ok is => rds_dbs is
                    | Err m => Err (lit "failed to describe db instances: " ++ m)
                    | Panic => Panic
                    end))) (fun dbs =>
      dnthen (dquiet (dgive (match start_text with
                    | [] => Ok (tadd now (- week))
                    | s => match parse_time s with
                           | Ok t => Ok t
                           | Err m => Err (lit "Invalid format: " ++ m)
                           | Panic => Panic
                           end
                    end))) (fun start =>
      dnthen (all_loads_told dbs start) (fun r =>
      match convert_loads vadd vlt 171 start (tadd start week) (fst r),
            convert_loads vadd vlt 171 start (tadd start week) (snd r) with
      | Some rows, Some trows =>
          dnthen (dquiet (perform sv (GCreate output (BoPi (Some rows) (Some trows))))) (fun e =>
          dnthen (dquiet (dgive (failed_with e))) (fun _ => dsay (output_lines wd output)))
      | _, _ => dquiet (dgive Panic)
      end)))).
  End Insights.
End Run.

(** ** infra/jaeger/client.go:48-73 FindTraces *)
(** What Recv answers *)
(** the generated gRPC client; no lines in /repo *)
Inductive recv (C : Type) := Chunk (c : C) | End | Broken (m : gostring).
Arguments Chunk {C}. Arguments End {C}. Arguments Broken {C}.
(** The loop of Recv, against the answers of the first calls; [None]: it waits for another *)
(** infra/jaeger/client.go:57-72 *)
Fixpoint receive {C} (answers : list (recv C)) (traces : list C) : option (outcome (list C)) :=
  match answers with
  | [] => None
  | Chunk c :: rest => receive rest (traces ++ [c])
  | End :: _ => Some (Ok traces)
  | Broken m :: _ => Some (Err (lit "failed to receive result to find traces: " ++ m))
  end.
(** infra/jaeger/client.go:48-73 *)
Definition find_traces {C} (call : option gostring) (answers : list (recv C)) : option (outcome (list C)) :=
  match call with Some m => Some (Err (lit "failed to find traces: " ++ m)) | None => receive answers [] end.
