(** The properties of the command offered for a heavy SQL: C84. *)
From Coq Require Import String List NArith Bool Lia Arith.
From Verif Require Import Base DigCommand DigCommandSpec CommandText CommandTextSpec CommandTextProofs.
Import ListNotations.

Lemma read_safe : forall env v w s, quote_safe v -> sh_read env (InQuote w) (v ++ 34%N :: s) = sh_read env (InWord (w ++ v)) s.
Proof. intros env v w s H. rewrite <- (read_quoted env v w s). now rewrite quote_safe_escape. Qed.
Lemma name_ok : Forall name_char (lit "DB_DATABASE").
Proof.
  apply Forall_forall. intros c H. unfold name_char. cbn in H. repeat (destruct H as [<-|H]; [lia|]). destruct H.
Qed.
Lemma dig_read : forall env db sql, quote_safe db -> quote_safe sql ->
    runs_with env (dig_command (Some db) (Some sql)) (lit "DB_DATABASE") db
      [lit "gr"; lit "db"; lit "suggest"; lit "-o"; lit "suggest.html"; lit "-q"; sql].
Proof.
  intros env db sql HD HS. unfold runs_with, dig_command.
  exists (34%N :: db ++ 34%N :: 32%N :: lit "gr" ++ 32%N :: lit "db" ++ 32%N :: lit "suggest" ++ 32%N :: lit "-o" ++ 32%N ::
     34%N :: lit "suggest.html" ++ 34%N :: next_line ++ 9%N :: lit "-q" ++ 32%N :: 34%N :: sql ++ 34%N :: []).
  split; [reflexivity|]. split; [discriminate|]. split; [exact name_ok|].
  change (sh_read env (InWord []) (34%N :: ?x)) with (sh_read env (InQuote []) x).
  rewrite read_safe by exact HD.
  rewrite read_blank. rewrite (read_plain_start env 103%N (lit "r")) by reflexivity.
  rewrite read_blank. rewrite (read_plain_start env 100%N (lit "b")) by reflexivity.
  rewrite read_blank. rewrite (read_plain_start env 115%N (lit "uggest")) by reflexivity.
  rewrite read_blank. rewrite (read_plain_start env 45%N (lit "o")) by reflexivity.
  rewrite read_blank. change (sh_read env Between (34%N :: ?x)) with (sh_read env (InQuote []) x).
  rewrite read_safe by (repeat constructor; discriminate). rewrite read_next_line.
  change (sh_read env Between (9%N :: ?x)) with (sh_read env Between x).
  rewrite (read_plain_start env 45%N (lit "q")) by reflexivity.
  rewrite read_blank. change (sh_read env Between (34%N :: ?x)) with (sh_read env (InQuote []) x).
  rewrite read_safe by exact HS. reflexivity.
Qed.

(** C84: for a database and an SQL that mean themselves inside double quotes, the command
    is run for exactly them; before a bar is chosen both are dots. *)
Theorem dig_command_survives_shell : forall env db sql,
    (forall d, db = Some d -> quote_safe d) -> (forall q, sql = Some q -> quote_safe q) ->
    runs_with env (dig_command db sql) (lit "DB_DATABASE") (match db with Some d => d | None => lit "..." end)
      [lit "gr"; lit "db"; lit "suggest"; lit "-o"; lit "suggest.html"; lit "-q"; match sql with Some q => q | None => lit "..." end].
Proof.
  intros env db sql HD HS.
  assert (DOTS : quote_safe (lit "...")) by (repeat constructor; discriminate).
  replace (dig_command db sql) with (dig_command (Some (match db with Some d => d | None => lit "..." end))
                                       (Some (match sql with Some q => q | None => lit "..." end))) by (destruct db, sql; reflexivity).
  apply dig_read; [destruct db; auto|destruct sql; auto].
Qed.
Example dig_command_survives_shell_ex : quote_safe (lit "my db") /\ quote_safe (lit "SELECT 'a' FROM t WHERE b > 1") /\
    dig_command (Some (lit "my db")) (Some (lit "SELECT 'a'")) =
    lit "DB_DATABASE=""my db"" gr db suggest -o ""suggest.html"" \" ++ [10%N; 9%N] ++ lit "-q ""SELECT 'a'""".
Proof. split; [repeat constructor; discriminate|]. split; [repeat constructor; discriminate|reflexivity]. Qed.

(** The SQL is not escaped (finding), unlike in the report of gr db suggest: with a quoted
    name of PostgreSQL the command runs another SQL, with one of MySQL its text is run. *)
Theorem dig_command_escape_refuted :
  ~ (forall env sql, exists ws, runs_with env (dig_command (Some (lit "d")) (Some sql)) (lit "DB_DATABASE") (lit "d")
       ([lit "gr"; lit "db"; lit "suggest"; lit "-o"; lit "suggest.html"; lit "-q"] ++ sql :: ws)).
Proof.
  intros H. destruct (H (fun _ => []) (lit "SELECT ""a"" FROM t")) as (ws & rest & E & _ & _ & R).
  unfold dig_command in E. cbn [app] in E. cbn in E. injection E as <-. vm_compute in R. discriminate.
Qed.
Theorem dig_command_other_sql :
  (forall env, runs_with env (dig_command (Some (lit "d")) (Some (lit "SELECT ""a"" FROM t"))) (lit "DB_DATABASE") (lit "d")
     [lit "gr"; lit "db"; lit "suggest"; lit "-o"; lit "suggest.html"; lit "-q"; lit "SELECT a FROM t"]) /\
  (forall env value ws, ~ runs_with env (dig_command (Some (lit "d")) (Some (lit "SELECT `a` FROM t"))) (lit "DB_DATABASE") value ws).
Proof.
  split.
  - intros env. eexists. split; [reflexivity|]. split; [discriminate|]. split; [exact name_ok|].
    reflexivity.
  - intros env value ws (rest & E & _ & _ & R). unfold dig_command in E. cbn in E. injection E as <-. vm_compute in R. discriminate.
Qed.
Print Assumptions dig_command_survives_shell.
Print Assumptions dig_command_escape_refuted.
Print Assumptions dig_command_other_sql.
