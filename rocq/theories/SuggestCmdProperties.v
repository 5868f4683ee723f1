(** C09, C10: statements sent to the server; what the suggest commands do. *)
From Coq Require Import String List NArith ZArith Bool Lia.
From Verif Require Import Base Dec IndexText IndexTextSpec IndexTextProofs Examiner ExaminerSpec ExaminerProofs
  SuggestCmd SuggestCmdSpec SuggestCmdProofs.
Import ListNotations.

(** ** C09 *)
Theorem mysql_statements_as_intended : forall name it,
    identifier name -> identifier (it_table it) -> it_cols it <> [] -> Forall (Forall word_char) (it_cols it) ->
    lex_mysql (mysql_create_sql name it) = Some (intended_mysql_create name (it_table it) (it_cols it)) /\
    lex_mysql (mysql_drop_sql name it) = Some (intended_mysql_drop name (it_table it)).
Proof.
  intros name it [_ Hn] [_ Ht] Hc HF. split; [|apply mysql_drop_tokens; auto].
  rewrite mysql_create_tokens by auto. do 2 f_equal.
  rewrite <- (map_id (it_cols it)) at 2. apply map_ext_in. intros c Hin.
  apply safe_name_id. rewrite Forall_forall in HF. auto.
Qed.
Theorem pg_statements_as_intended : forall name it,
    identifier name -> identifier (it_table it) -> it_cols it <> [] -> Forall (Forall word_char) (it_cols it) ->
    lex_pg (pg_create_sql name it) = Some (intended_pg_create name (it_table it) (it_cols it)) /\
    lex_pg (pg_drop_sql name it) = Some (intended_pg_drop name).
Proof.
  intros name it [_ Hn] [_ Ht] Hc HF. split; [|apply pg_drop_tokens; auto].
  rewrite pg_create_tokens by auto. do 2 f_equal.
  rewrite <- (map_id (it_cols it)) at 2. apply map_ext_in. intros c Hin.
  apply safe_name_id. rewrite Forall_forall in HF. auto.
Qed.
Example statements_as_intended_ex :
  let it := mk_it (lit "users") [lit "name"; lit "email"] in
  mysql_create_sql (lit "1_name_email") it = lit "ALTER TABLE `users` ADD INDEX `1_name_email` (`name`,`email`)" /\
  lex_mysql (mysql_create_sql (lit "1_name_email") it) =
    Some [TWord (lit "ALTER"); TWord (lit "TABLE"); TIdent (lit "users"); TWord (lit "ADD"); TWord (lit "INDEX");
          TIdent (lit "1_name_email"); TSym 40%N; TIdent (lit "name"); TSym 44%N; TIdent (lit "email"); TSym 41%N] /\
  lex_pg (pg_drop_sql (lit "1_name_email") it) = Some [TWord (lit "DROP"); TWord (lit "INDEX"); TIdent (lit "1_name_email")].
Proof. vm_compute. auto. Qed.
Print Assumptions mysql_statements_as_intended.
Print Assumptions pg_statements_as_intended.

(** The filter by IsSafe is needed: the builders do not quote the table name. *)
Theorem unsafe_table_breaks_statement_refuted :
  exists it, lex_mysql (mysql_create_sql (lit "1_a") it)
             <> Some (intended_mysql_create (lit "1_a") (it_table it) (it_cols it)).
Proof.
  exists (mk_it (lit "t` DROP COLUMN `x") [lit "a"]). vm_compute. discriminate.
Qed.
Print Assumptions unsafe_table_breaks_statement_refuted.

Section Env.
  Context {W : Type} (env : cmd_env W) (unix : N) (rnds : nat -> N).

  (** All DDL of a command run is as intended (given that suggested targets have
      columns, see C12). *)
  Theorem suggest_ddl_as_intended : forall runs texts output w tr w' r,
      (sql_suggest env unix rnds runs texts output w = (tr, w', r) \/
       hasura_suggest env unix rnds runs texts output w = (tr, w', r)) ->
      (forall w w0 its, env_suggest env w = (w0, inl its) -> Forall (fun it => it_cols it <> []) its) ->
      forall n it a, In (EvCreate n it a) (examination tr) ->
        lex_mysql (mysql_create_sql n it) = Some (intended_mysql_create n (it_table it) (it_cols it)) /\
        lex_mysql (mysql_drop_sql n it) = Some (intended_mysql_drop n (it_table it)) /\
        lex_pg (pg_create_sql n it) = Some (intended_pg_create n (it_table it) (it_cols it)) /\
        lex_pg (pg_drop_sql n it) = Some (intended_pg_drop n).
  Proof.
    intros runs texts output w tr w' r H HE n it a HI.
    assert (HS : cmd_shape env unix rnds runs texts tr r).
    { destruct H; [eapply sql_suggest_shape|eapply hasura_suggest_shape]; eauto. }
    destruct (cmd_calls_safe _ _ _ _ _ _ _ HS n it a (or_introl HI)) as (H1 & H2 & H3).
    pose proof (cmd_calls_cols _ _ _ _ _ _ _ HS HE _ _ _ HI) as H4.
    destruct (mysql_statements_as_intended n it H1 H2 H4 H3).
    destruct (pg_statements_as_intended n it H1 H2 H4 H3). auto.
  Qed.

  (** ** C10 *)
  Theorem no_ddl_unless_requested : forall texts output w tr w' r,
      sql_suggest env unix rnds false texts output w = (tr, w', r) \/
      hasura_suggest env unix rnds false texts output w = (tr, w', r) ->
      examination tr = [].
  Proof.
    intros texts output w tr w' r H. eapply cmd_no_ddl with (runs := false); eauto.
    destruct H; [eapply sql_suggest_shape|eapply hasura_suggest_shape]; eauto.
  Qed.

  Theorem only_requested_targets_examined : forall runs texts output w tr w' r,
      sql_suggest env unix rnds runs texts output w = (tr, w', r) \/
      hasura_suggest env unix rnds runs texts output w = (tr, w', r) ->
      exists targets rest,
        (asked (examination tr) <> [] ->
           (texts <> [] /\ new_index_targets_from_texts texts = Ok targets) \/
           (texts = [] /\ exists w w0 its, env_suggest env w = (w0, inl its) /\ targets = filter is_safe its)) /\
        targets = asked (examination tr) ++ rest /\
        (runs = true -> r = Ok tt -> rest = [] /\
           ((texts <> [] /\ new_index_targets_from_texts texts = Ok targets) \/
           (texts = [] /\ exists w w0 its, env_suggest env w = (w0, inl its) /\ targets = filter is_safe its))).
  Proof.
    intros runs texts output w tr w' r H. eapply cmd_targets.
    destruct H; [eapply sql_suggest_shape|eapply hasura_suggest_shape]; eauto.
  Qed.

  Theorem malformed_option_fails_first : forall runs texts output w m,
      new_index_targets_from_texts texts = Err m ->
      sql_suggest env unix rnds runs texts output w = ([], w, Err m).
  Proof. intros runs texts output w m H. unfold sql_suggest. now rewrite H. Qed.

  Theorem malformed_option_no_ddl_hasura : forall runs texts output w m tr w' r,
      new_index_targets_from_texts texts = Err m ->
      hasura_suggest env unix rnds runs texts output w = (tr, w', r) ->
      examination tr = [] /\ r <> Ok tt.
  Proof.
    intros runs texts output w m tr w' r H E. unfold hasura_suggest in E.
    destruct (env_explain env w) as [w1 [e|]]; [inversion E; subst; split; [auto|congruence]|].
    destruct (env_suggest env w1) as [w2 [its|e]].
    - rewrite H in E. inversion E; subst; split; [auto|congruence].
    - inversion E; subst; split; [auto|congruence].
  Qed.
End Env.
Print Assumptions suggest_ddl_as_intended.
Print Assumptions no_ddl_unless_requested.
Print Assumptions only_requested_targets_examined.
Print Assumptions malformed_option_fails_first.
Print Assumptions malformed_option_no_ddl_hasura.

(** A concrete environment: one safe and one unsafe suggestion. *)
Definition toy_env : cmd_env nat :=
  {| env_db := {| db_execute := fun w => (S w, inl 1%Z); db_create := fun w _ _ => (S w, None);
                  db_drop := fun w _ _ => (S w, None) |};
     env_explain := fun w => (S w, None);
     env_suggest := fun w => (S w, inl [mk_it (lit "t") [lit "a"]; mk_it (lit "t u") [lit "b"]]);
     env_html := fun _ _ _ => None |}.
Example suggest_examines_safe_only_ex :
  asked (examination (fst (fst (sql_suggest toy_env 1 (fun _ => 0%N) true [] (lit "o.html") 0)))) = [mk_it (lit "t") [lit "a"]] /\
  asked (examination (fst (fst (sql_suggest toy_env 1 (fun _ => 0%N) true [lit "x:y"] [] 0)))) = [mk_it (lit "x") [lit "y"]] /\
  examination (fst (fst (hasura_suggest toy_env 1 (fun _ => 0%N) false [lit "x:y"] [] 0))) = [] /\
  snd (sql_suggest toy_env 1 (fun _ => 0%N) true [] (lit "o.html") 0) = Ok tt.
Proof. vm_compute. auto. Qed.
Example malformed_option_ex : exists m, new_index_targets_from_texts [lit "a:b"; lit "a;b"] = Err m.
Proof. vm_compute. eexists; reflexivity. Qed.

(** For Hasura "fails before any database access" is false. *)
Theorem malformed_option_hasura_refuted :
  exists texts m, new_index_targets_from_texts texts = Err m /\
    exists e, In e (fst (fst (hasura_suggest toy_env 1 (fun _ => 0%N) true texts [] 0))) /\ touches_db e.
Proof.
  exists [lit "a;b"]. eexists. split; [vm_compute; reflexivity|]. exists CeExplain. vm_compute. auto.
Qed.
Print Assumptions malformed_option_hasura_refuted.
