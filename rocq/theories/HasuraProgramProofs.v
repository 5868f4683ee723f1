(** Proofs about the whole Hasura command. *)
From Coq Require Import String List NArith ZArith QArith Bool Lia Arith Permutation.
From Verif Require Import Base IndexText IndexTextSpec IndexTextProofs IndexTextProperties IndexBuild IndexBuildSpec TableFields BuildSpec BuildProofs BuildProperties
  Existing ExistingSpec ExistingProofs ExistingProperties
  ExplainTree PlanView SqlServer MetaSql MetaSqlProofs CatalogReadProofs Examiner SuggestCmd Json HandOver CommandText Program ProgramSpec ProgramProofs HasuraProgram HasuraProgramSpec.
From Verif Require PgExplain MysqlCollect PgAst PgCollect PgSpec PgWalkSpec PgProperties Hasura HasuraSpec HasuraProofs CatalogPgProperties ConnText.
Import ListNotations.
Local Open Scope list_scope.
Local Open Scope nat_scope.

Section Proofs.
Context {W : Type} (hv : hworld W) (unmarshal : gostring -> option jv) (kfold : rune -> rune).
(** The SQL server a state of the world is *)
Definition sql_at (w : W) : Hasura.sql_server := fun rq =>
  do text <- posted (snd (h_post hv w (lit "/v2/query") (run_sql_json rq))); result_of unmarshal kfold text.
Definition after (w : W) (path : gostring) (body : jv) : W := fst (fst (h_post hv w path body)).
Lemma post_run : forall path body w, post hv path body w = ([APost path body], after w path body, posted (snd (h_post hv w path body))).
Proof. intros. unfold post, after. destruct (h_post hv w path body) as [[w1 ms] a]. reflexivity. Qed.
Lemma result_of_no_panic : forall text, result_of unmarshal kfold text <> Panic.
Proof.
  intros text. unfold result_of. destruct (unmarshal text) as [j|]; [|discriminate].
  destruct (as_result kfold j) as [l|m|] eqn:E; [discriminate|discriminate|]. exfalso.
  assert (HT : forall v, as_text v <> Panic) by (intros []; discriminate).
  assert (HE : forall {A} (f : jv -> outcome A), (forall v, f v <> Panic) -> forall l, as_each f l <> Panic).
  { intros A f Hf l. induction l as [|v l IH]; cbn [as_each]; [discriminate|]. specialize (Hf v). destruct (f v); cbn [obind]; [|discriminate|congruence].
    destruct (as_each f l); cbn [obind]; [discriminate|discriminate|congruence]. }
  assert (HL : forall {A} (f : jv -> outcome A), (forall v, f v <> Panic) -> forall v, as_list f v <> Panic).
  { intros A f Hf []; cbn [as_list]; try discriminate. now apply HE. }
  destruct j as [| | | | |l]; cbn [as_result] in E; try discriminate. revert E. generalize (@nil (list gostring)).
  induction l as [|[k v] l IH]; intros cur E; cbn [read_result] in E; [discriminate|].
  destruct (named kfold (lit "result_type") k).
  - specialize (HT v). destruct (as_text v); cbn [obind] in E; [eauto|discriminate|congruence].
  - destruct (named kfold (lit "result") k); [|eauto]. pose proof (HL _ _ (HL _ _ HT) v) as HV. destruct (as_list _ v); cbn [obind] in E; [eauto|discriminate|congruence].
Qed.
Lemma posted_no_panic : forall a, posted a <> Panic.
Proof. intros [m|s t]; cbn [posted]; [discriminate|]. destruct (N.eqb s 200); discriminate. Qed.
Lemma run_sql_run : forall rq w, run_sql hv unmarshal kfold rq w =
    ([APost query_path (run_sql_json rq)], after w query_path (run_sql_json rq), sql_at w rq).
Proof.
  intros rq w. unfold run_sql, andthen. rewrite post_run. unfold sql_at, give. change (lit "/v2/query") with query_path.
  destruct (posted (snd (h_post hv w query_path (run_sql_json rq)))); reflexivity.
Qed.

(** Two states: columns from the first, indexes from the second *)
Definition two (s1 s2 : Hasura.sql_server) : Hasura.sql_server := fun rq =>
  if N.eqb (nth 7 (Hasura.rs_sql rq) 0%N) 10%N then s1 rq else s2 rq.
Lemma built_columns : forall schema tables q, Hasura.build_query Hasura.column_template schema tables = Ok q -> nth 7 q 0%N = 10%N.
Proof.
  intros schema tables q H. unfold Hasura.build_query in H. destruct (Hasura.word_only schema); [|discriminate].
  destruct (Hasura.check_tables tables); cbn [obind] in H; [|discriminate|discriminate]. injection H as <-. reflexivity.
Qed.
Lemma built_indexes : forall schema tables q, Hasura.build_query Hasura.index_template schema tables = Ok q -> nth 7 q 0%N = 32%N.
Proof.
  intros schema tables q H. unfold Hasura.build_query in H. destruct (Hasura.word_only schema); [|discriminate].
  destruct (Hasura.check_tables tables); cbn [obind] in H; [|discriminate|discriminate]. injection H as <-. reflexivity.
Qed.
Lemma columns_of_two : forall s1 s2 schema tables, Hasura.get_table_columns (two s1 s2) schema tables = Hasura.get_table_columns s1 schema tables.
Proof.
  intros. unfold Hasura.get_table_columns. destruct (Hasura.build_query _ _ _) as [q|m|] eqn:E; cbn [obind]; try reflexivity.
  unfold two. cbn [Hasura.rs_sql]. rewrite (built_columns _ _ _ E). reflexivity.
Qed.
Lemma indexes_of_two : forall s1 s2 scan schema tables, Hasura.get_indexes (two s1 s2) scan schema tables = Hasura.get_indexes s2 scan schema tables.
Proof.
  intros. unfold Hasura.get_indexes. destruct (Hasura.build_query _ _ _) as [q|m|] eqn:E; cbn [obind]; try reflexivity.
  unfold two. cbn [Hasura.rs_sql]. rewrite (built_indexes _ _ _ E). reflexivity.
Qed.

Definition question (q : gostring) : act := APost query_path (run_sql_json {| Hasura.rs_sql := q; Hasura.rs_read_only := Some true |}).
Definition answered (w : W) (q : gostring) : W := after w query_path (run_sql_json {| Hasura.rs_sql := q; Hasura.rs_read_only := Some true |}).
Definition hsteps (P : list gostring -> Prop) (w w1 w' : W) (tr : list act) (r : outcome (list index_target)) : Prop :=
  (tr = [] /\ w' = w /\ failed r) \/
  exists tables q1, P tables /\ Hasura.build_query Hasura.column_template (lit "public") tables = Ok q1 /\ w1 = answered w q1 /\
    ((tr = [question q1] /\ w' = w1 /\ failed r) \/
     exists names q2, Hasura.build_query Hasura.index_template (lit "public") names = Ok q2 /\ (forall t, In t names -> In t tables) /\
       tr = [question q1; question q2] /\ w' = answered w1 q2).

Section Opt.
Context (fold : rune -> rune) (so : list gostring -> list gostring)
  (ord : order gostring) (ordf : order ifield) (srt : list index_target_table -> list index_target_table)
  (norm : gostring -> gostring) (parse : gostring -> outcome (list PgAst.node)) (scan : gostring -> outcome (list gostring)).
Context (Ho : is_order ord) (Hof : is_order ordf) (Hs : is_sort itt_less srt).

Lemma hasura_names_built : forall (rows : list (gostring * gostring * bool)) tables schemas scopes its, check_schemas tables (create_table_schemas tables rows) = Ok schemas ->
    build ord ordf srt schemas scopes = Ok its -> forall t, In t (table_names its) -> In t tables.
Proof.
  intros rows tables schemas scopes its HC HB. destruct tables as [|t0 l].
  - cbn in HC. injection HC as <-.
    destruct its as [|it its]; [intros t []|]. exfalso. destruct (suggested_columns_exist _ _ _ _ _ _ Ho Hof Hs HB it (or_introl eq_refl)) as (ts & [] & _).
  - exact (names_built ord ordf srt Ho Hof Hs (fun _ => Ok rows) (t0 :: l) schemas scopes its HC HB).
Qed.

Ltac stop H := first [rewrite give_err in H | rewrite give_panic in H].
Lemma hasura_suggest_steps : forall sql w w' tr r,
    suggest_for hv unmarshal kfold fold so ord ordf srt norm parse scan sql w = (tr, w', r) ->
    exists w1,
      r = Hasura.hasura_suggest norm fold so ord ordf srt scan (two (sql_at w) (sql_at w1)) (parse sql) /\
      hsteps (fun tables => exists root names, parse sql = Ok [root] /\
               PgCollect.collect_table_names norm so root = Ok names /\ MysqlCollect.first_error names = Ok tables) w w1 w' tr r.
Proof.
  intros sql w w' tr r H. unfold suggest_for, Hasura.hasura_suggest in *.
  assert (HF : forall m, @failed (list index_target) (Err m)) by (intros m x; discriminate).
  assert (HP : @failed (list index_target) Panic) by (intros x; discriminate).
  destruct (parse sql) as [stmts|m|] eqn:EP;
    [rewrite give_ok in H|stop H; injection H as <- <- <-; exists w; split; [reflexivity|left; auto]|stop H; injection H as <- <- <-; exists w; split; [reflexivity|left; auto]].
  cbn [obind]. destruct stmts as [|root [|root2 rest]]; [injection H as <- <- <-; exists w; split; [reflexivity|left; auto]| |injection H as <- <- <-; exists w; split; [reflexivity|left; auto]].
  destruct (PgCollect.collect_table_names norm so root) as [tn|m|] eqn:ETn;
    [rewrite give_ok in H|stop H; injection H as <- <- <-; exists w; split; [reflexivity|left; auto]|stop H; injection H as <- <- <-; exists w; split; [reflexivity|left; auto]].
  cbn [obind]. destruct (MysqlCollect.first_error tn) as [tables|m|] eqn:ET;
    [rewrite give_ok in H|stop H; injection H as <- <- <-; exists w; split; [reflexivity|left; auto]|stop H; injection H as <- <- <-; exists w; split; [reflexivity|left; auto]].
  cbn [obind]. unfold ask_columns at 1 in H. unfold Hasura.hasura_table_schemas.
  destruct (Hasura.build_query Hasura.column_template (lit "public") tables) as [q1|m|] eqn:E1.
  2:{ apply andthen_inv in H. destruct H as (tr1 & w1 & r1 & Hp & H). rewrite give_err in Hp. injection Hp as <- <- <-. destruct H as (-> & -> & ->).
      exists w. split; [|left; auto]. unfold Hasura.get_table_columns. rewrite E1. reflexivity. }
  2:{ apply andthen_inv in H. destruct H as (tr1 & w1 & r1 & Hp & H). rewrite give_panic in Hp. injection Hp as <- <- <-. destruct H as (-> & -> & ->).
      exists w. split; [|left; auto]. unfold Hasura.get_table_columns. rewrite E1. reflexivity. }
  exists (answered w q1). rewrite columns_of_two.
  assert (HRes : forall r, failed r -> tr = [question q1] -> w' = answered w q1 ->
    hsteps (fun tables => exists root0 names, @Ok (list PgAst.node) [root] = Ok [root0] /\
               PgCollect.collect_table_names norm so root0 = Ok names /\ MysqlCollect.first_error names = Ok tables) w (answered w q1) w' tr r).
  { intros r0 Hr -> ->. right. exists tables, q1. split; [now exists root, tn|]. split; [exact E1|]. split; [reflexivity|]. left. auto. }
  unfold Hasura.get_table_columns at 1. rewrite E1. cbn [obind].
  apply andthen_inv in H. destruct H as (tr1 & w1 & r1 & Hp & H). rewrite give_ok in Hp.
  apply andthen_inv in Hp. destruct Hp as (tr2 & w2 & r2 & Hp & H2). rewrite run_sql_run in Hp. injection Hp as <- <- Er. rewrite Er. clear Er.
  fold (question q1) in *. fold (answered w q1) in *.
  destruct r2 as [rws|m|]; cbn [obind];
    [|destruct H2 as (-> & -> & ->); destruct H as (-> & -> & ->); split; [reflexivity|apply HRes; auto]|destruct H2 as (-> & -> & ->); destruct H as (-> & -> & ->); split; [reflexivity|apply HRes; auto]].
  destruct H2 as (tr3 & H2 & ->). unfold give in H2. injection H2 as <- <- <-. rewrite app_nil_r in H.
  destruct (Hasura.parse_columns rws) as [rows|m|]; cbn [obind];
    [|destruct H as (-> & -> & ->); split; [reflexivity|apply HRes; auto]|destruct H as (-> & -> & ->); split; [reflexivity|apply HRes; auto]].
  destruct H as (tr2 & H & ->).
  assert (HRes' : forall r, failed r -> tr2 = [] -> w' = answered w q1 ->
    hsteps (fun tables => exists root0 names, @Ok (list PgAst.node) [root] = Ok [root0] /\
               PgCollect.collect_table_names norm so root0 = Ok names /\ MysqlCollect.first_error names = Ok tables) w (answered w q1) w' ([question q1] ++ tr2) r).
  { intros r0 Hr -> ->. apply HRes; auto. }
  clear HRes. destruct (check_schemas tables (create_table_schemas tables rows)) as [schemas|m|] eqn:ES;
    [rewrite give_ok in H|stop H; injection H as <- <- <-; cbn [obind]; split; [reflexivity|apply HRes'; auto]|stop H; injection H as <- <- <-; cbn [obind]; split; [reflexivity|apply HRes'; auto]].
  cbn [obind]. destruct (PgCollect.collect_scopes norm (lit "public") root) as [sn|m|] eqn:ESn;
    [rewrite give_ok in H|stop H; injection H as <- <- <-; cbn [obind]; split; [reflexivity|apply HRes'; auto]|stop H; injection H as <- <- <-; cbn [obind]; split; [reflexivity|apply HRes'; auto]].
  cbn [obind]. destruct (MysqlCollect.first_error sn) as [scopes|m|] eqn:EScp;
    [rewrite give_ok in H|stop H; injection H as <- <- <-; cbn [obind]; split; [reflexivity|apply HRes'; auto]|stop H; injection H as <- <- <-; cbn [obind]; split; [reflexivity|apply HRes'; auto]].
  cbn [obind]. destruct (build ord ordf srt schemas scopes) as [its|m|] eqn:EB;
    [rewrite give_ok in H|stop H; injection H as <- <- <-; cbn [obind]; split; [reflexivity|apply HRes'; auto]|stop H; injection H as <- <- <-; cbn [obind]; split; [reflexivity|apply HRes'; auto]].
  cbn [obind]. rewrite remove_steps. rewrite indexes_of_two. unfold ask_indexes in H.
  unfold Hasura.get_indexes at 1. destruct (Hasura.build_query Hasura.index_template (lit "public") (table_names its)) as [q2|m|] eqn:E2.
  2:{ apply andthen_inv in H. destruct H as (tr1 & w1 & r1 & Hp & H). rewrite give_err in Hp. injection Hp as <- <- <-. destruct H as (-> & -> & ->).
      split; [reflexivity|apply HRes'; auto]. }
  2:{ apply andthen_inv in H. destruct H as (tr1 & w1 & r1 & Hp & H). rewrite give_panic in Hp. injection Hp as <- <- <-. destruct H as (-> & -> & ->).
      split; [reflexivity|apply HRes'; auto]. }
  cbn [obind].
  assert (HTail : forall r, tr2 = [question q2] -> w' = answered (answered w q1) q2 ->
    hsteps (fun tables => exists root0 names, @Ok (list PgAst.node) [root] = Ok [root0] /\
               PgCollect.collect_table_names norm so root0 = Ok names /\ MysqlCollect.first_error names = Ok tables) w (answered w q1) w' ([question q1] ++ tr2) r).
  { intros r0 -> ->. right. exists tables, q1. split; [now exists root, tn|]. split; [exact E1|]. split; [reflexivity|]. right. exists (table_names its), q2.
    split; [exact E2|]. split; [|auto]. eapply hasura_names_built; eauto. }
  apply andthen_inv in H. destruct H as (tr3 & w3 & r3 & Hp & H). rewrite give_ok in Hp.
  apply andthen_inv in Hp. destruct Hp as (tr4 & w4 & r4 & Hp & H4). rewrite run_sql_run in Hp. injection Hp as <- <- Er. rewrite Er. clear Er.
  fold (question q2) in *. fold (answered (answered w q1) q2) in *.
  destruct r4 as [rws2|m|]; cbn [obind];
    [|destruct H4 as (-> & -> & ->); destruct H as (-> & -> & ->); split; [reflexivity|apply HTail; auto]|destruct H4 as (-> & -> & ->); destruct H as (-> & -> & ->); split; [reflexivity|apply HTail; auto]].
  destruct H4 as (tr5 & H4 & ->). unfold give in H4. injection H4 as <- <- <-. rewrite app_nil_r in H.
  destruct (Hasura.parse_indexes scan rws2) as [infos|m|]; cbn [obind].
  - destruct H as (tr6 & H & ->). unfold give in H. injection H as <- <- <-. split; [reflexivity|apply HTail; auto].
  - destruct H as (-> & -> & ->). split; [reflexivity|apply HTail; auto].
  - destruct H as (-> & -> & ->). split; [reflexivity|apply HTail; auto].
Qed.
End Opt.
End Proofs.
