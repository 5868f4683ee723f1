(** A concrete session beside C137: a run, its report, the command offered, the next run. *)
From Coq Require Import String List NArith ZArith QArith Bool Permutation.
From Verif Require Import Base IndexText IndexTextSpec IndexBuild TableFields SqlServer CommandText CommandTextSpec CommandLine CommandLineProperties HandOver HandOverSpec Program
  WholeProgram WholeSpec.
From Verif Require LoadChartsProperties MysqlProperties MysqlCollect PgProperties ProgramMyProperties ProgramPgProperties HandOverProperties BuildProperties HasuraProgramProperties HasuraReportProperties HasuraProgramSpec.
Import ListNotations.
Local Open Scope nat_scope.

Definition my_gr :=
  gr ProgramMyProperties.ex_world MysqlProperties.ascii_low ascii_fold (fun s => s) (fun l => l) BuildProperties.id_ord BuildProperties.id_ord BuildProperties.isort
    (fun _ => Ok [MysqlProperties.ex_stmt]) (fun _ => Ok []) no_int quoted quoted1
    HasuraProgramProperties.ex_hworld HasuraReportProperties.report_answers ascii_fold (fun q => Some q) (fun _ => Ok tt) (fun _ _ => give (Err [])).
Definition pg_gr :=
  gr ProgramPgProperties.ex_world MysqlProperties.ascii_low ascii_fold PgProperties.low (fun l => l) BuildProperties.id_ord BuildProperties.id_ord BuildProperties.isort
    (fun _ => Ok []) (fun _ => Ok [PgProperties.ex_stmt]) no_int quoted quoted1
    HasuraProgramProperties.ex_hworld HasuraReportProperties.report_answers ascii_fold (fun q => Some q) (fun _ => Ok tt) (fun _ _ => give (Err [])).
Definition hasura_gr :=
  gr ProgramPgProperties.ex_world MysqlProperties.ascii_low ascii_fold PgProperties.low (fun l => l) BuildProperties.id_ord BuildProperties.id_ord BuildProperties.isort
    (fun _ => Ok []) (fun _ => Ok [PgProperties.ex_stmt]) no_int quoted quoted1
    HasuraReportProperties.report_hworld HasuraReportProperties.report_answers ascii_fold (fun q => Some q) (fun _ => Ok tt) (fun _ _ => give (Err [])).
(** the command of the card with the suggestions, and what its words make the program do next *)
Definition offered_by (l : list card) : gostring :=
  match filter (fun c => match c with CardSuggestion _ _ _ => true | _ => false end) l with CardSuggestion _ _ c :: _ => c | _ => [] end.
Definition next (gr : N -> (nat -> N) -> (gostring -> gostring) -> list gostring -> @prog nat unit) (env : gostring -> gostring)
    (argv : list gostring) (checked : list bool) (short : act -> gostring) : gostring * option (list gostring * outcome unit) :=
  let '(tr, _, _) := gr 7%N (fun _ => 0%N) env argv 0 in
  match filter (fun a => match a with AWrite _ _ => true | _ => false end) tr with
  | AWrite _ b :: _ =>
      match browse (fun q => Ok q) (LoadChartsProperties.sort_by faster) checked b with
      | Ok l => (offered_by l,
                 match shell_words (fun _ => []) (offered_by l) with
                 | Some (_ :: argv2) => let '(tr2, _, r2) := gr 8%N (fun _ => 0%N) env argv2 0 in Some (map short tr2, r2)
                 | _ => None
                 end)
      | _ => ([], None)
      end
  | _ => ([], None)
  end.
Definition nl_tab := [10%N; 9%N].
(** the first suggestion is unchecked; the hypotheses of the theorem about the server, the
    orders and the sort are met by [ProgramMyProperties.mysql_report_ex] *)
Example mysql_next_run_ex :
  next my_gr ProgramMyProperties.ex_env [lit "db"; lit "suggest"; lit "mysql"; lit "-o"; lit "out.html"; lit "-q"; lit "select ..."] [false; true] ProgramMyProperties.short =
  (lit "gr db suggest mysql --with-examine \" ++ nl_tab ++ lit "-i ""users:email"" \" ++ nl_tab ++
   lit "-o ""out_examine.html"" \" ++ nl_tab ++ lit "-q ""select ...""",
   Some ([lit "open root@tcp(h:3306)/db"; lit "EXPLAIN ANALYZE FORMAT=TREE select ..."; lit "ask about db,users,tasks"; lit "ask about db,tasks,users";
          lit "select ..."; lit "ALTER TABLE `users` ADD INDEX `8_email` (`email`)"; lit "select ..."; lit "ALTER TABLE `users` DROP INDEX `8_email`";
          lit "write out_examine.html"; lit "close"], Ok tt)).
Proof. vm_compute. reflexivity. Qed.
Example pg_next_run_ex :
  next pg_gr ProgramPgProperties.ex_env [lit "db"; lit "suggest"; lit "postgres"; lit "--output=out.html"; lit "-qselect ..."] [false; true] ProgramMyProperties.short =
  (lit "gr db suggest postgres --with-examine \" ++ nl_tab ++ lit "-i ""tasks:id+user_id"" \" ++ nl_tab ++
   lit "-o ""out_examine.html"" \" ++ nl_tab ++ lit "-q ""select ...""",
   Some ([lit "open user='me' dbname='db' sslmode=disable"; lit "EXPLAIN (ANALYZE, BUFFERS) select ..."; lit "ask about public,tasks,users";
          lit "ask about public,tasks,users"; lit "select ..."; lit "CREATE INDEX ""8_id_user_id"" ON ""tasks"" (""id"",""user_id"")";
          lit "select ..."; lit "DROP INDEX ""8_id_user_id"""; lit "write out_examine.html"; lit "close"], Ok tt)).
Proof. vm_compute. reflexivity. Qed.
Example hasura_next_run_ex :
  next hasura_gr HasuraProgramProperties.ex_env
    [lit "db"; lit "suggest"; lit "hasura"; lit "postgres"; lit "-o"; lit "out"; lit "--query=query { users { id } }"; lit "--json-variables"; lit "{}"] [false; true]
    (fun a => HasuraProgramProperties.told (HasuraProgramSpec.hear a)) =
  (lit "gr db suggest hasura postgres --with-examine \" ++ nl_tab ++ lit "-i ""tasks:id+user_id"" \" ++ nl_tab ++
   lit "-o out_examine \" ++ nl_tab ++ lit "-q ""query { users { id } }"" \" ++ nl_tab ++ lit "--json-variables ""{}""",
   Some ([lit "explain query { users { id } }"; lit "ask"; lit "ask"; lit "run query { users { id } }";
          lit "CREATE INDEX ""8_id_user_id"" ON ""tasks"" (""id"",""user_id"")"; lit "run query { users { id } }"; lit "DROP INDEX ""8_id_user_id""";
          lit "write out_examine"], Ok tt)).
Proof. vm_compute. reflexivity. Qed.
