(** Concrete command lines beside C140. *)
From Coq Require Import String List NArith ZArith QArith Bool Permutation.
From Verif Require Import Base ExplainTree IndexText IndexBuild TableFields Otel SqlServer CommandLine CommandLineSpec CommandLineProperties HandOver Program HasuraProgram DigProgram
  WholeRun WholeRunSpec WholeRunCases WholeLineProperties.
From Verif Require MysqlProperties PgProperties ProgramMyProperties HasuraProgramProperties HasuraReportProperties BuildProperties DigPiProperties DigJaegerStoreProperties.
Import ListNotations.
Local Open Scope nat_scope.

(** with numbers in decimal digits, and Jaeger instead of AWS *)
Definition ex_int (t : gostring) : outcome Z :=
  if forallb (fun c => (48 <=? c)%N && (c <=? 57)%N) t then Ok (fold_left (fun a c => (a * 10 + Z.of_N c - 48)%Z) t 0%Z) else Err (lit "invalid syntax").
Definition ex_dig_gr (argv : list gostring) : list deed * nat * outcome unit :=
  gr_run ProgramMyProperties.ex_world MysqlProperties.ascii_low ascii_fold PgProperties.low (fun l => l) BuildProperties.id_ord BuildProperties.id_ord BuildProperties.isort
    (fun _ => Ok [MysqlProperties.ex_stmt]) (fun _ => Ok [PgProperties.ex_stmt]) ex_int quoted quoted1
    HasuraReportProperties.report_hworld HasuraReportProperties.report_answers ascii_fold (fun q => Some q) (fun _ => Ok tt)
    DigJaegerStoreProperties.ex_server (fun _ _ l => l) (fun l => l) (fun l => l) (fun _ l => l) (fun _ l => l) (fun l => l) DigJaegerStoreProperties.ex_parse
    Qplus DigPiProperties.qlt (Qeq_bool 0) DigPiProperties.ex_start
    7 (fun _ => 0%N) 7200000000000 (DigPiProperties.ex_at 604800000000000) DigJaegerStoreProperties.ex_env argv 0.
Definition jaeger_args : list gostring :=
  [lit "-s"; lit "bff"; lit "--count"; lit "7"; lit "-ojaeger.html"; lit "--start-from=1970-01-01T00:00:00Z"; lit "-c=20"; lit "-d"; lit "5000"].
Definition jaeger_settings : settings :=
  [(lit "service-name", lit "bff"); (lit "count", lit "7"); (lit "output", lit "jaeger.html"); (lit "start-from", lit "1970-01-01T00:00:00Z");
   (lit "count", lit "20"); (lit "min-duration-millisecond", lit "5000")].
Definition finding (d : deed) : list Otel.query := match d with inr (existT _ (GFind q) _) => [q] | _ => [] end.
Example jaeger_line_ex :
  asked_of ex_int JaegerCmd jaeger_args jaeger_settings /\
  (let '(tr, _, r) := ex_dig_gr (path JaegerCmd ++ jaeger_args) in
   map (fun q => (q_service q, q_num q, q_min q, fst (q_duration q))) (flat_map finding tr) =
     [(lit "bff", 20, 0, 5); (lit "bff", 20, 1800, 5); (lit "bff", 20, 3600, 5); (lit "bff", 20, 5400, 5)]%Z /\
   flat_map written tr = [lit "jaeger.html"] /\ r = Ok tt).
Proof.
  split.
  - assert (start_of ex_int quoted quoted1 root_cmd (path JaegerCmd ++ jaeger_args) = Ok (Run JaegerCmd jaeger_settings [])) as ST by (vm_compute; reflexivity).
    apply command_line_exact in ST as (_ & R & NH & RQ). split; [now exists []|]. now split.
  - vm_compute. split; [reflexivity|]. split; reflexivity.
Qed.
Definition mysql_args : list gostring :=
  [lit "-q"; lit "select ..."; lit "--with-examine"; lit "-voout.html"; lit "-i"; lit "users:email"; lit "--with-examine=false"; lit "-i=users:name"].
Definition mysql_settings : settings :=
  [(lit "query", lit "select ..."); (lit "with-examine", lit "true"); (lit "verbose", lit "true"); (lit "output", lit "out.html"); (lit "index", lit "users:email");
   (lit "with-examine", lit "false"); (lit "index", lit "users:name")].
Example mysql_line_ex :
  asked_of no_int MysqlCmd mysql_args mysql_settings /\
  seen (ex_gr (path MysqlCmd ++ mysql_args)) = ([], [lit "out.html"], Ok tt).
Proof.
  split.
  - assert (start_of no_int quoted quoted1 root_cmd (path MysqlCmd ++ mysql_args) = Ok (Run MysqlCmd mysql_settings [])) as ST by (vm_compute; reflexivity).
    apply command_line_exact in ST as (_ & R & NH & RQ). split; [now exists []|]. now split.
  - vm_compute. reflexivity.
Qed.
Example other_lines_ex :
  asked_of no_int InsightsCmd [lit "-o"; lit "pi.html"] [(lit "output", lit "pi.html")] /\
  asked_of no_int PostgresCmd [lit "-o"; lit "out.html"; lit "-qSELECT 1"] [(lit "output", lit "out.html"); (lit "query", lit "SELECT 1")] /\
  asked_of no_int HasuraPostgresCmd [lit "-o"; lit "out.html"; lit "-q{a}"; lit "--json-variables"; lit "{}"]
    [(lit "output", lit "out.html"); (lit "query", lit "{a}"); (lit "json-variables", lit "{}")] /\
  asked_of no_int VersionCmd [lit "-v"] [(lit "verbose", lit "true")].
Proof.
  assert (forall j args st ws, start_of no_int quoted quoted1 root_cmd (path j ++ args) = Ok (Run j st ws) -> asked_of no_int j args st) as H.
  { intros j args st ws ST. apply command_line_exact in ST as (_ & R & NH & RQ). split; [now exists ws|]. now split. }
  split; [|split; [|split]]; apply H with []; vm_compute; reflexivity.
Qed.
