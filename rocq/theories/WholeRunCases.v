(** Concrete command lines beside C138 and C139. *)
From Coq Require Import String List NArith ZArith QArith Bool Permutation.
From Verif Require Import Base IndexText IndexBuild TableFields SqlServer CommandLine CommandLineSpec CommandLineProperties HandOver Program HasuraProgram DigProgram
  WholeRun WholeRunSpec.
From Verif Require MysqlProperties PgProperties ProgramMyProperties HasuraProgramProperties HasuraReportProperties BuildProperties DigPiProperties.
Import ListNotations.
Local Open Scope nat_scope.

Definition ex_gr (argv : list gostring) : list deed * nat * outcome unit :=
  gr_run ProgramMyProperties.ex_world MysqlProperties.ascii_low ascii_fold PgProperties.low (fun l => l) BuildProperties.id_ord BuildProperties.id_ord BuildProperties.isort
    (fun _ => Ok [MysqlProperties.ex_stmt]) (fun _ => Ok [PgProperties.ex_stmt]) no_int quoted quoted1
    HasuraReportProperties.report_hworld HasuraReportProperties.report_answers ascii_fold (fun q => Some q) (fun _ => Ok tt)
    (DigPiProperties.ex_aws DigPiProperties.ex_dbs) (fun _ _ l => l) (fun l => l) (fun l => l) (fun _ l => l) (fun _ l => l) (fun l => l) (fun _ => Ok 0%Z)
    Qplus DigPiProperties.qlt (Qeq_bool 0) DigPiProperties.ex_start
    7 (fun _ => 0%N) 0 (DigPiProperties.ex_at 604800000000000) ProgramMyProperties.ex_env argv 0.
Definition executed (d : deed) : list gostring := match d with inl (AExec s) => [s] | _ => [] end.
Definition seen (x : list deed * nat * outcome unit) : list gostring * list gostring * outcome unit :=
  let '(tr, _, r) := x in (flat_map executed tr, flat_map written tr, r).
Example only_what_is_asked_ex :
  seen (ex_gr (path MysqlCmd ++ [lit "-voout.html"; lit "-q=select ..."; lit "--index=users:email"; lit "--with-examine=T"])) =
  ([lit "select ..."; lit "ALTER TABLE `users` ADD INDEX `7_email` (`email`)"; lit "select ..."; lit "ALTER TABLE `users` DROP INDEX `7_email`"], [lit "out.html"], Ok tt) /\
  seen (ex_gr (path MysqlCmd ++ [lit "-voout.html"; lit "-q=select ..."; lit "--index=users:email"])) = ([], [lit "out.html"], Ok tt) /\
  seen (ex_gr (path InsightsCmd ++ [lit "--output"; lit "pi.html"])) = ([], [lit "pi.html"], Ok tt) /\
  named_on (path MysqlCmd ++ [lit "-voout.html"; lit "-q=select ..."; lit "--with-examine=T"]) (lit "with-examine") /\
  on_line (path MysqlCmd ++ [lit "-voout.html"; lit "-q=select ..."; lit "--with-examine=T"]) (lit "out.html").
Proof.
  split; [vm_compute; reflexivity|]. split; [vm_compute; reflexivity|]. split; [vm_compute; reflexivity|]. split.
  - exists (lit "--with-examine=T"). split; [cbn; tauto|]. right. now exists (lit "T").
  - exists (lit "-voout.html"), (lit "-vo"). split; [cbn; tauto|reflexivity].
Qed.
Example refused_line_ex :
  ex_gr (path MysqlCmd ++ [lit "-o"; lit "out.html"; lit "--query"]) = ([], 0, Err (lit "flag needs an argument: --query")) /\
  ex_gr (path JaegerCmd ++ [lit "-o"; lit "out.html"; lit "-s"; lit "bff"; lit "--help"]) = ([], 0, Ok tt) /\
  ex_gr (path JaegerCmd ++ [lit "-o"; lit "out.html"]) = ([], 0, Err (lit "required flag(s) ""service-name"" not set")).
Proof. split; [|split]; vm_compute; reflexivity. Qed.
