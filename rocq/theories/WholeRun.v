(** The program from the command line on, with all of its commands. *)
From Coq Require Import String List NArith ZArith QArith Bool.
From Verif Require Import Base ExplainTree IndexText IndexBuild TableFields Lib Otel Pi SqlServer CommandLine Json HandOver Program HasuraProgram DigProgram WholeProgram.
From Verif Require MysqlAst PgAst PgArray.
Import ListNotations.

(** what leaves the program: to a database or Hasura, to Jaeger or AWS, to the disk *)
Notation deed := (act + exchange)%type.

Section Run.
  Context {W : Type} (sv : world W) (low fold : rune -> rune) (norm : gostring -> gostring) (so : list gostring -> list gostring)
    (ord : order gostring) (ordf : order ifield) (srt : list index_target_table -> list index_target_table)
    (my_parse : gostring -> outcome (list MysqlAst.node)) (pg_parse : gostring -> outcome (list PgAst.node))
    (parse_int : gostring -> outcome Z) (q : gostring -> gostring) (q1 : rune -> gostring)
    (hv : hworld W) (unmarshal : gostring -> option jv) (kfold : rune -> rune) (float : Q -> option Q) (parse_url : gostring -> outcome unit)
    (** Jaeger and AWS, and the orders of maps and sorts with them *)
    (ds : services W) (ords : nat -> nat -> list bytes -> list bytes) (srts : list (tree node) -> list (tree node))
    (ordc : list (gostring * Z) -> list (gostring * Z)) (ordv ordt : nat -> list (gostring * Z) -> list (gostring * Z))
    (srtt : list (Z * Z) -> list (Z * Z)) (parse_time : gostring -> outcome Z)
    (vadd : Q -> Q -> Q) (vlt : Q -> Q -> bool) (vzero : Q -> bool) (parse_gtime : gostring -> outcome gtime).
  (** cmd/root.go:39-45: running the one command chosen *)
  Definition lifted {X} (f : X -> deed) (p : W -> list X * W * outcome unit) (w : W) : list deed * W * outcome unit :=
    let '(tr, w1, r) := p w in (map f tr, w1, r).
  (** main.go:19-26, cmd/root.go:39-45, the RunE functions of cmd/app/dig/jaeger.go:22-29 and
      cmd/db/dig/performance_insights.go:17-20; version, help and completion only print *)
  Definition gr_run (unix : N) (rnds : nat -> N) (now : Z) (gnow : gtime) (env : gostring -> gostring) (argv : list gostring)
      : W -> list deed * W * outcome unit :=
    match start_of parse_int q q1 root_cmd argv with
    | Ok (Run JaegerCmd st _) =>
        let o := jaeger_options_of parse_int st in
        lifted inr (jaeger_main ds ords srts ordc ordv ordt srtt parse_time env now
          {| jf_service := do_service o; jf_millis := do_millis o; jf_threshold := do_threshold o; jf_count := do_count o;
             jf_start := do_start o; jf_output := do_output o |})
    | Ok (Run InsightsCmd st _) =>
        let o := insights_options_of st in
        lifted inr (pi_main ds vadd vlt vzero parse_gtime gnow (fst o) (snd o))
    | _ =>
        lifted inl (gr sv low fold norm so ord ordf srt my_parse pg_parse parse_int q q1 hv unmarshal kfold float parse_url
          (fun _ _ => give (Ok tt)) unix rnds env argv)
    end.
End Run.
