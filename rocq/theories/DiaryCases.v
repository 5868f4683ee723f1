(** C126-C129: concrete runs of the three commands, with all their lines. *)
From Coq Require Import String List NArith ZArith QArith Bool Lia Arith Permutation.
From Verif Require Import Base IndexBuild Examiner HandOver Program Diary DiarySpec DiaryProperties TransportProperties.
From Verif Require IndexBuildSpec BuildProperties MysqlProperties ProgramMyProperties ProgramPgProperties PgProperties HasuraProgramProperties HasuraProgram LoadChartsProperties PgArray ExistingProperties.
Import ListNotations.
Local Open Scope string_scope.
Local Open Scope list_scope.
Local Open Scope nat_scope.

Definition sorted_results := LoadChartsProperties.sort_by Diary.faster.
Lemma sorted_results_ok : is_sort Diary.faster sorted_results.
Proof. apply LoadChartsProperties.sort_by_is_sort; unfold Diary.faster; intros *; rewrite ?Z.ltb_lt, ?Z.ltb_ge; lia. Qed.
(** Every line with its level, every act in short *)
Definition seen_entry {A} (short : A -> gostring) (x : entry A) : gostring :=
  match x with Said Debug t => lit "debug: " ++ t | Said Info t => lit "info: " ++ t | Said Error t => lit "error: " ++ t | Did a => short a end.
Definition my_run (env : gostring -> gostring) (runs : bool) (texts : list gostring) (output : gostring) :=
  mysql_aloud (fun l => l) sorted_results IndexText.ascii_fold (fun l => l) BuildProperties.id_ord BuildProperties.id_ord BuildProperties.isort 7 (fun _ => 0%N) (Some (lit "/home/me"))
    runs texts ProgramMyProperties.ex_query output ProgramMyProperties.ex_world MysqlProperties.ascii_low (fun _ => Ok [MysqlProperties.ex_stmt]) env.
Definition pg_run (env : gostring -> gostring) (runs : bool) (texts : list gostring) (output : gostring) :=
  pg_aloud (fun l => l) sorted_results IndexText.ascii_fold (fun l => l) BuildProperties.id_ord BuildProperties.id_ord BuildProperties.isort 7 (fun _ => 0%N) (Some (lit "/home/me"))
    runs texts ProgramPgProperties.ex_query output ProgramPgProperties.ex_world PgProperties.low (fun _ => Ok [PgProperties.ex_stmt]) env.
Definition hasura_run (runs : bool) (texts : list gostring) (output : gostring) :=
  hasura_aloud (fun l => l) sorted_results IndexText.ascii_fold (fun l => l) BuildProperties.id_ord BuildProperties.id_ord BuildProperties.isort 7 (fun _ => 0%N) (Some (lit "/home/me"))
    runs texts (lit "query { users { id } }") output HasuraProgramProperties.ex_hworld HasuraProgramProperties.ex_answers IndexText.ascii_fold PgProperties.low (fun _ => Ok [PgProperties.ex_stmt])
    PgArray.array_in (lit "{}") (fun q => Some q) (fun _ => Ok tt) HasuraProgramProperties.ex_env.
Definition tab : gostring := [9%N].
Example mysql_told_ex : is_sort Diary.faster sorted_results /\
  map (seen_entry ProgramMyProperties.short) (fst (fst (my_run ProgramMyProperties.ex_env true [lit "users:email"; lit "users:name"] (lit "out.html") 0))) =
  [lit "open root@tcp(h:3306)/db"; lit "EXPLAIN ANALYZE FORMAT=TREE select ..."; lit "ask about db,users,tasks"; lit "debug: Table schemas:";
   lit "debug: " ++ tab ++ lit "0. Table(name: users, columns: [id, name, email], primaryKeys: [id])";
   lit "debug: " ++ tab ++ lit "1. Table(name: tasks, columns: [id, user_id, title], primaryKeys: [id])";
   lit "ask about db,tasks,users";
   lit "debug: Found possibly efficient index combinations:";
   lit "debug: " ++ tab ++ lit "0.table: tasks, columns: [user_id, title])";
   lit "debug: " ++ tab ++ lit "1.table: users, columns: [email])";
   lit "debug: " ++ tab ++ lit "2.table: users, columns: [id, email])";
   lit "debug: " ++ tab ++ lit "3.table: users, columns: [email, id, name])";
   lit "debug: " ++ tab ++ lit "4.table: users, columns: [id, email, name])";
   lit "info: Start examination..."; lit "info: Executing query..."; lit "select ...";
   lit "info: Creating index(7_email)..."; lit "ALTER TABLE `users` ADD INDEX `7_email` (`email`)";
   lit "info: Executing query..."; lit "select ...";
   lit "info: Dropping index(7_email)..."; lit "ALTER TABLE `users` DROP INDEX `7_email`";
   lit "info: Creating index(7_name)..."; lit "ALTER TABLE `users` ADD INDEX `7_name` (`name`)";
   lit "info: Executing query..."; lit "select ...";
   lit "info: Dropping index(7_name)..."; lit "ALTER TABLE `users` DROP INDEX `7_name`";
   lit "debug: ====RESULT===="; lit "debug: Original Time: 1ms"; lit "debug: ==Table: users";
   lit "debug: Time: 3ms (-200.0% reduced), Columns(email)"; lit "debug: Time: 6ms (-500.0% reduced), Columns(name)";
   lit "write out.html"; lit "info: Result html is at: /home/me/out.html"; lit "close"].
Proof. split; [exact sorted_results_ok|]. vm_compute. reflexivity. Qed.
Definition process_screen {A} (x : list (entry A) * nat * ending) : list gostring * ending := (screen false (fst (fst x)), snd x).
Example pg_told_ex :
  process_screen (process (fun m => m) false true (pg_run ProgramPgProperties.ex_env true [lit "users:email"] (lit "out.html")) 0) =
  ([lit "NOTE: Using mock"; lit "Start examination..."; lit "Executing query..."; lit "Creating index(7_email)..."; lit "Executing query...";
    lit "Dropping index(7_email)..."; lit "Result html is at: /home/me/out.html"], Exit 0) /\
  process_screen (process (fun m => m) false false (pg_run (fun _ => []) true [lit "users:email"] (lit "out.html")) 0) =
  ([lit "env: DB_USERNAME is not set"], Exit 1) /\
  exists b, In (AWrite (lit "out.html") b) (acts (fst (fst (pg_run ProgramPgProperties.ex_env true [lit "users:email"] (lit "out.html") 0)))) /\
    report_result b <> None /\ length (report_targets b) = 9.
Proof. split; [vm_compute; reflexivity|]. split; [vm_compute; reflexivity|]. eexists. split; [vm_compute; do 8 right; left; reflexivity|]. split; [discriminate|reflexivity]. Qed.
Example hasura_told_ex :
  process_screen (process (fun m => m) false false (hasura_run true [lit "users:email"] (lit "out.html")) 0) =
  ([lit "Start examination..."; lit "Executing query..."; lit "Creating index(7_email)..."; lit "Executing query...";
    lit "Dropping index(7_email)..."; lit "Result html is at: /home/me/out.html"], Exit 0) /\
  process_screen (process (fun m => m) false false (hasura_run false [] []) 0) = ([], Exit 0).
Proof. split; vm_compute; reflexivity. Qed.
(** Where times differ the percentage is rounded; an original time of 0 ms gives none *)
Example reduced_ex : reduced_text 2 3 = lit "33.3" /\ reduced_text 1 3 = lit "66.7" /\ reduced_text 4 3 = lit "-33.3" /\ reduced_text 3 3 = lit "0.0" /\
  reduced_text 3 16 = lit "81.2" /\ reduced_text 0 0 = lit "NaN" /\ reduced_text 5 0 = lit "-Inf".
Proof. repeat apply conj; reflexivity. Qed.
(** Two environments that differ in the password only; the server of the case lets both in *)
Definition with_password (pw : gostring) (k : gostring) : gostring := if seqb k (lit "DB_PASSWORD") then pw else ProgramMyProperties.ex_env k.
Example password_unseen_ex : same_but_password (with_password (lit "one")) (with_password (lit "two")) /\
  map (seen_entry ProgramMyProperties.short) (firstn 1 (fst (fst (my_run (with_password (lit "one")) false [] [] 0)))) = [lit "open root:one@tcp(h:3306)/db"] /\
  (forall w c c', on_open ProgramMyProperties.ex_world w c = on_open ProgramMyProperties.ex_world w c').
Proof.
  split; [|split; [vm_compute; reflexivity|reflexivity]]. intros k H. unfold with_password. destruct (seqb_spec k (lit "DB_PASSWORD")) as [E|E]; [contradiction|reflexivity].
Qed.
Print Assumptions mysql_told.
Print Assumptions pg_told.
Print Assumptions hasura_told.
Print Assumptions mysql_logged.
Print Assumptions pg_logged.
Print Assumptions hasura_logged.
Print Assumptions mysql_seen.
Print Assumptions pg_seen.
Print Assumptions hasura_seen.
