(** Proofs about the whole commands. *)
From Coq Require Import String List NArith ZArith QArith Bool Lia Arith Permutation.
From Verif Require Import Base IndexText IndexTextSpec IndexTextProofs IndexTextProperties IndexBuild IndexBuildSpec TableFields BuildSpec BuildProofs BuildProperties
  Existing ExistingSpec ExistingProofs ExistingProperties
  ExplainTree PlanView SqlServer MetaSql MetaSqlProofs CatalogReadProofs Examiner SuggestCmd HandOver CommandText Program ProgramSpec.
From Verif Require MysqlExplain PgExplain MysqlAst MysqlCollect MysqlProperties PgAst PgCollect PgProperties ConnText.
Import ListNotations.

Section Proofs.
Context {W : Type} (sv : world W).
Definition at_ (w : W) : select_server := fun rq => snd (on_select sv w rq).

Lemma give_ok : forall {A B} (x : A) (f : A -> prog B) (w : W), andthen (give (Ok x)) f w = f x w.
Proof. intros. unfold andthen, give. destruct (f x w) as [[tr w2] r]. reflexivity. Qed.
Lemma give_err : forall {A B} (m : gostring) (f : A -> prog B) (w : W), andthen (give (Err m)) f w = ([], w, Err m).
Proof. reflexivity. Qed.
Lemma give_panic : forall {A B} (f : A -> prog B) (w : W), andthen (give Panic) f w = ([], w, Panic).
Proof. reflexivity. Qed.
Lemma andthen_inv : forall {A B} (p : prog A) (f : A -> prog B) (w w' : W) tr r, andthen p f w = (tr, w', r) ->
    exists tr1 w1 r1, p w = (tr1, w1, r1) /\
      match r1 with
      | Ok x => exists tr2, f x w1 = (tr2, w', r) /\ tr = tr1 ++ tr2
      | Err m => tr = tr1 /\ w' = w1 /\ r = Err m
      | Panic => tr = tr1 /\ w' = w1 /\ r = Panic
      end.
Proof.
  intros A B p f w w' tr r H. unfold andthen in H. destruct (p w) as [[tr1 w1] [x|m|]]; exists tr1, w1; eexists; (split; [reflexivity|]); cbn beta iota in *.
  - destruct (f x w1) as [[tr2 w2] r2]. injection H as <- <- <-. exists tr2. auto.
  - injection H as <- <- <-. auto.
  - injection H as <- <- <-. auto.
Qed.
Lemma select_as_run : forall {A} message rq (f : row -> outcome A) w,
    select_as sv message rq f w = ([ASelect rq], fst (on_select sv w rq), selected (at_ w) message rq f).
Proof. intros. unfold select_as, selected, at_. destruct (on_select sv w rq). reflexivity. Qed.

(** What the suggestion asks: about columns, then about indexes *)
Definition steps (P : list gostring -> Prop) (columns indexes : list gostring -> outcome request) (w w1 w' : W)
    (tr : list act) (r : outcome (list index_target)) : Prop :=
  (tr = [] /\ w' = w /\ failed r) \/
  exists tables rq1, P tables /\ columns tables = Ok rq1 /\ w1 = fst (on_select sv w rq1) /\
    ((tr = [ASelect rq1] /\ w' = w1 /\ failed r) \/
     exists names rq2, indexes names = Ok rq2 /\ (forall t, In t names -> In t tables) /\
       tr = [ASelect rq1; ASelect rq2] /\ w' = fst (on_select sv w1 rq2)).

Section Opt.
Context (fold : rune -> rune) (so : list gostring -> list gostring)
  (ord : order gostring) (ordf : order ifield) (srt : list index_target_table -> list index_target_table)
  (query : gostring).

Lemma schemas_named : forall columns tables schemas, collect_table_schemas columns tables = Ok schemas ->
    forall ts, In ts schemas -> In (ts_name ts) tables.
Proof.
  intros columns tables schemas H ts HI. unfold collect_table_schemas in H. destruct tables as [|t0 l]; [discriminate|].
  destruct (columns (t0 :: l)) as [rows|m|] eqn:E; cbn [obind] in H; try discriminate.
  rewrite check_spec in H. destruct (find _ _); [discriminate|]. injection H as <-.
  change (In ts (map (fun t => schema_from t rows) (t0 :: l))) in HI.
  apply in_map_iff in HI. destruct HI as (t & <- & HI). exact HI.
Qed.
Lemma remove_steps : forall get its,
    (do kp <- remove_existing fold (fun p => nth p its (mk_it [] [])) get (seq 0 (length its));
     Ok (map (fun p => nth p its (mk_it [] [])) kp)) =
    (do infos <- get (table_names its); Ok (kept fold its infos)).
Proof.
  intros get its. unfold remove_existing, table_names, kept. destruct (get _); reflexivity.
Qed.
Lemma schemas_of_rows : forall columns tables rows, columns tables = Ok rows -> tables <> [] ->
    collect_table_schemas columns tables = collect_table_schemas (fun _ => Ok rows) tables.
Proof. intros columns tables rows H HN. unfold collect_table_schemas. destruct tables; [congruence|]. now rewrite H. Qed.

Context (Ho : is_order ord) (Hof : is_order ordf) (Hs : is_sort itt_less srt).
Lemma names_built : forall columns tables schemas scopes its, collect_table_schemas columns tables = Ok schemas ->
    build ord ordf srt schemas scopes = Ok its -> forall t, In t (table_names its) -> In t tables.
Proof.
  intros columns tables schemas scopes its HC HB t Ht. unfold table_names in Ht.
  rewrite (uniq_id Nat.eqb Nat.eqb_eq) in Ht by apply seq_NoDup.
  apply (tables_asked_once (fun p => nth p its (mk_it [] []))) in Ht. destruct Ht as (p & Hp & <-). apply in_seq in Hp.
  assert (HIn : In (nth p its (mk_it [] [])) its) by (apply nth_In; lia).
  destruct (suggestions_well_formed _ _ _ _ _ _ Ho Hof Hs HB _ HIn) as (_ & _ & ts & T1 & T2 & _).
  rewrite <- T2. exact (schemas_named _ _ _ HC _ T1).
Qed.

Section My.
Context (low : rune -> rune) (parse : gostring -> outcome (list MysqlAst.node)).
(** What the suggestion asks and what comes of it *)
Lemma mysql_suggest_steps : forall db w w' tr r,
    mysql_suggest_with sv fold so ord ordf srt query low parse db w = (tr, w', r) ->
    exists w1,
      r = MysqlCollect.mysql_suggest low fold so ord ordf srt (mysql_columns (at_ w) db) (mysql_indexes (at_ w1) db) (parse query) /\
      steps (fun tables => exists root rest, parse query = Ok (root :: rest) /\
               MysqlCollect.first_error (MysqlCollect.collect_table_names low so root) = Ok tables)
        (mysql_request mysql_column_template db) (mysql_request mysql_index_template db) w w1 w' tr r.
Proof.
  intros db w w' tr r H. unfold mysql_suggest_with, MysqlCollect.mysql_suggest in *.
  assert (HF : forall m, @failed (list index_target) (Err m)) by (intros m x; discriminate).
  assert (HP : @failed (list index_target) Panic) by (intros x; discriminate).
  destruct (parse query) as [stmts|m|] eqn:EP;
    [rewrite give_ok in H|rewrite give_err in H; injection H as <- <- <-; exists w; split; [reflexivity|left; auto]|rewrite give_panic in H; injection H as <- <- <-; exists w; split; [reflexivity|left; auto]].
  cbn [obind]. destruct stmts as [|root rest]; [injection H as <- <- <-; exists w; split; [reflexivity|left; auto]|].
  destruct (MysqlCollect.first_error (MysqlCollect.collect_table_names low so root)) as [tables|m|] eqn:ET;
    [rewrite give_ok in H|rewrite give_err in H; injection H as <- <- <-; exists w; split; [reflexivity|left; auto]|rewrite give_panic in H; injection H as <- <- <-; exists w; split; [reflexivity|left; auto]].
  cbn [obind]. unfold mysql_ask_columns at 1 in H.
  destruct (mysql_request mysql_column_template db tables) as [rq1|m|] eqn:E1.
  2:{ apply andthen_inv in H. destruct H as (tr1 & w1 & r1 & Hp & H). rewrite give_err in Hp. injection Hp as <- <- <-. destruct H as (-> & -> & ->).
      exists w. split; [|left; auto]. destruct tables as [|t0 l]; [change (mysql_request mysql_column_template db []) with (@Err request (in_message ++ empty_in_message)) in E1; injection E1 as <-; reflexivity|].
      unfold collect_table_schemas, mysql_columns. rewrite E1. reflexivity. }
  2:{ unfold mysql_request in E1. destruct (sqlx_in mysql_column_template [One db; Many tables]) eqn:EX; try discriminate.
      destruct tables as [|t0 l]; [discriminate EX|]. rewrite (sqlx_in_two _ _ _ (proj1 templates_two_marks)) in EX by discriminate. discriminate EX. }
  assert (HN : tables <> []) by (intros ->; discriminate E1).
  exists (fst (on_select sv w rq1)).
  assert (HCs : mysql_columns (at_ w) db tables = selected (at_ w) (column_message (lit "schema")) rq1 mysql_scan_column)
    by (unfold mysql_columns; rewrite E1; reflexivity).
  apply andthen_inv in H. destruct H as (tr1 & w1 & r1 & Hp & H). rewrite give_ok, select_as_run in Hp. injection Hp as <- <- Er.
  pose proof (eq_trans HCs Er) as EC. clear HCs Er. destruct r1 as [rows|m|].
  2:{ destruct H as (-> & -> & ->). split; [unfold collect_table_schemas; destruct tables; [congruence|]; rewrite EC; reflexivity|].
      right. exists tables, rq1. split; [now exists root, rest|]. split; [exact E1|]. split; [reflexivity|]. left. auto. }
  2:{ destruct H as (-> & -> & ->). split; [unfold collect_table_schemas; destruct tables; [congruence|]; rewrite EC; reflexivity|].
      right. exists tables, rq1. split; [now exists root, rest|]. split; [exact E1|]. split; [reflexivity|]. left. auto. }
  destruct H as (tr2 & H & ->). rewrite (schemas_of_rows _ _ _ EC HN).
  assert (HRes : forall r, failed r -> tr2 = [] -> w' = fst (on_select sv w rq1) ->
    steps (fun tables => exists root0 rest0, @Ok (list MysqlAst.node) (root :: rest) = Ok (root0 :: rest0) /\
               MysqlCollect.first_error (MysqlCollect.collect_table_names low so root0) = Ok tables)
      (mysql_request mysql_column_template db) (mysql_request mysql_index_template db) w (fst (on_select sv w rq1)) w' ([ASelect rq1] ++ tr2) r).
  { intros r0 Hr -> ->. right. exists tables, rq1. split; [now exists root, rest|]. split; [exact E1|]. split; [reflexivity|]. left. auto. }
  destruct (collect_table_schemas (fun _ => Ok rows) tables) as [schemas|m|] eqn:ES;
    [rewrite give_ok in H|rewrite give_err in H; injection H as <- <- <-; cbn [obind]; split; [reflexivity|apply HRes; auto]|rewrite give_panic in H; injection H as <- <- <-; cbn [obind]; split; [reflexivity|apply HRes; auto]].
  cbn [obind]. destruct (MysqlCollect.first_error (MysqlCollect.collect_scopes low root)) as [scopes|m|] eqn:EScp;
    [rewrite give_ok in H|rewrite give_err in H; injection H as <- <- <-; cbn [obind]; split; [reflexivity|apply HRes; auto]|rewrite give_panic in H; injection H as <- <- <-; cbn [obind]; split; [reflexivity|apply HRes; auto]].
  cbn [obind]. destruct (build ord ordf srt schemas scopes) as [its|m|] eqn:EB;
    [rewrite give_ok in H|rewrite give_err in H; injection H as <- <- <-; cbn [obind]; split; [reflexivity|apply HRes; auto]|rewrite give_panic in H; injection H as <- <- <-; cbn [obind]; split; [reflexivity|apply HRes; auto]].
  cbn [obind]. rewrite remove_steps. unfold mysql_ask_indexes in H.
  destruct (mysql_request mysql_index_template db (table_names its)) as [rq2|m|] eqn:E2.
  2:{ apply andthen_inv in H. destruct H as (tr1 & w1 & r1 & Hp & H). rewrite give_err in Hp. injection Hp as <- <- <-. destruct H as (-> & -> & ->).
      split; [|apply HRes; auto]. destruct (table_names its) as [|t0 l]; [change (mysql_request mysql_index_template db []) with (@Err request (in_message ++ empty_in_message)) in E2; injection E2 as <-; reflexivity|].
      unfold mysql_get_indexes, mysql_indexes. rewrite E2. reflexivity. }
  2:{ unfold mysql_request in E2. destruct (sqlx_in mysql_index_template [One db; Many (table_names its)]) eqn:EX; try discriminate.
      destruct (table_names its) as [|t0 l]; [discriminate EX|]. rewrite (sqlx_in_two _ _ _ (proj1 (proj2 templates_two_marks))) in EX by discriminate. discriminate EX. }
  assert (HN2 : table_names its <> []) by (intros E; rewrite E in E2; discriminate E2).
  assert (HIx : mysql_get_indexes (mysql_indexes (at_ (fst (on_select sv w rq1))) db) (table_names its) =
      do rows <- selected (at_ (fst (on_select sv w rq1))) index_message rq2 mysql_scan_index; to_index_info rows).
  { unfold mysql_get_indexes, mysql_indexes. rewrite E2. destruct (table_names its); [congruence|reflexivity]. }
  rewrite HIx.
  assert (HTail : forall r, tr2 = [ASelect rq2] -> w' = fst (on_select sv (fst (on_select sv w rq1)) rq2) ->
    steps (fun tables => exists root0 rest0, @Ok (list MysqlAst.node) (root :: rest) = Ok (root0 :: rest0) /\
               MysqlCollect.first_error (MysqlCollect.collect_table_names low so root0) = Ok tables)
      (mysql_request mysql_column_template db) (mysql_request mysql_index_template db) w (fst (on_select sv w rq1)) w' ([ASelect rq1] ++ tr2) r).
  { intros r0 -> ->. right. exists tables, rq1. split; [now exists root, rest|]. split; [exact E1|]. split; [reflexivity|]. right. exists (table_names its), rq2.
    split; [exact E2|]. split; [|auto]. eapply names_built; eauto. }
  apply andthen_inv in H. destruct H as (tr3 & w3 & r3 & Hp & H).
  rewrite give_ok in Hp. apply andthen_inv in Hp. destruct Hp as (tr4 & w4 & r4 & Hq & Hp). rewrite select_as_run in Hq. injection Hq as <- <- <-.
  destruct (selected (at_ (fst (on_select sv w rq1))) index_message rq2 mysql_scan_index) as [l|m|].
  - destruct Hp as (tr5 & Hp & ->). unfold give in Hp. injection Hp as <- <- <-. cbn [obind].
    destruct (to_index_info l) as [infos|m|]; cbn [obind].
    + destruct H as (tr6 & H & ->). unfold give in H. injection H as <- <- <-. auto.
    + destruct H as (-> & -> & ->). auto.
    + destruct H as (-> & -> & ->). auto.
  - destruct Hp as (-> & -> & ->). destruct H as (-> & -> & ->). auto.
  - destruct Hp as (-> & -> & ->). destruct H as (-> & -> & ->). auto.
Qed.
End My.
Section Pg.
Context (norm : gostring -> gostring) (parse : gostring -> outcome (list PgAst.node)).
Lemma pg_suggest_steps : forall db w w' tr r,
    pg_suggest_with sv fold so ord ordf srt query norm parse db w = (tr, w', r) ->
    exists w1,
      r = PgCollect.pg_suggest norm fold so ord ordf srt (pg_columns (at_ w) db) (pg_indexes (at_ w1) db) (parse query) /\
      steps (fun tables => exists root names, parse query = Ok [root] /\
               PgCollect.collect_table_names norm so root = Ok names /\ MysqlCollect.first_error names = Ok tables)
        (pg_request pg_column_template db) (pg_request pg_index_template db) w w1 w' tr r.
Proof.
  intros db w w' tr r H. unfold pg_suggest_with, PgCollect.pg_suggest in *.
  assert (HF : forall m, @failed (list index_target) (Err m)) by (intros m x; discriminate).
  assert (HP : @failed (list index_target) Panic) by (intros x; discriminate).
  destruct (parse query) as [stmts|m|] eqn:EP;
    [rewrite give_ok in H|rewrite give_err in H; injection H as <- <- <-; exists w; split; [reflexivity|left; auto]|rewrite give_panic in H; injection H as <- <- <-; exists w; split; [reflexivity|left; auto]].
  cbn [obind]. destruct stmts as [|root [|root2 rest]]; [injection H as <- <- <-; exists w; split; [reflexivity|left; auto]| |injection H as <- <- <-; exists w; split; [reflexivity|left; auto]].
  destruct (PgCollect.collect_table_names norm so root) as [tn|m|] eqn:ETn;
    [rewrite give_ok in H|rewrite give_err in H; injection H as <- <- <-; exists w; split; [reflexivity|left; auto]|rewrite give_panic in H; injection H as <- <- <-; exists w; split; [reflexivity|left; auto]].
  cbn [obind]. destruct (MysqlCollect.first_error tn) as [tables|m|] eqn:ET;
    [rewrite give_ok in H|rewrite give_err in H; injection H as <- <- <-; exists w; split; [reflexivity|left; auto]|rewrite give_panic in H; injection H as <- <- <-; exists w; split; [reflexivity|left; auto]].
  cbn [obind]. unfold pg_ask_columns at 1 in H.
  destruct (pg_request pg_column_template db tables) as [rq1|m|] eqn:E1.
  2:{ apply andthen_inv in H. destruct H as (tr1 & w1 & r1 & Hp & H). rewrite give_err in Hp. injection Hp as <- <- <-. destruct H as (-> & -> & ->).
      exists w. split; [|left; auto]. destruct tables as [|t0 l]; [change (pg_request pg_column_template db []) with (@Err request (in_message ++ empty_in_message)) in E1; injection E1 as <-; reflexivity|].
      unfold collect_table_schemas, pg_columns. rewrite E1. reflexivity. }
  2:{ unfold pg_request, mysql_request in E1. destruct (sqlx_in pg_column_template [One db; Many tables]) eqn:EX; try discriminate.
      destruct tables as [|t0 l]; [discriminate EX|]. rewrite (sqlx_in_two _ _ _ (proj1 (proj2 (proj2 templates_two_marks)))) in EX by discriminate. discriminate EX. }
  assert (HN : tables <> []) by (intros ->; discriminate E1).
  exists (fst (on_select sv w rq1)).
  assert (HCs : pg_columns (at_ w) db tables = selected (at_ w) (column_message (lit "column")) rq1 pg_scan_column)
    by (unfold pg_columns; rewrite E1; reflexivity).
  apply andthen_inv in H. destruct H as (tr1 & w1 & r1 & Hp & H). rewrite give_ok, select_as_run in Hp. injection Hp as <- <- Er.
  pose proof (eq_trans HCs Er) as EC. clear HCs Er. destruct r1 as [rows|m|].
  2:{ destruct H as (-> & -> & ->). split; [unfold collect_table_schemas; destruct tables; [congruence|]; rewrite EC; reflexivity|].
      right. exists tables, rq1. split; [now exists root, tn|]. split; [exact E1|]. split; [reflexivity|]. left. auto. }
  2:{ destruct H as (-> & -> & ->). split; [unfold collect_table_schemas; destruct tables; [congruence|]; rewrite EC; reflexivity|].
      right. exists tables, rq1. split; [now exists root, tn|]. split; [exact E1|]. split; [reflexivity|]. left. auto. }
  destruct H as (tr2 & H & ->). rewrite (schemas_of_rows _ _ _ EC HN).
  assert (HRes : forall r, failed r -> tr2 = [] -> w' = fst (on_select sv w rq1) ->
    steps (fun tables => exists root0 names, @Ok (list PgAst.node) [root] = Ok [root0] /\
               PgCollect.collect_table_names norm so root0 = Ok names /\ MysqlCollect.first_error names = Ok tables)
      (pg_request pg_column_template db) (pg_request pg_index_template db) w (fst (on_select sv w rq1)) w' ([ASelect rq1] ++ tr2) r).
  { intros r0 Hr -> ->. right. exists tables, rq1. split; [now exists root, tn|]. split; [exact E1|]. split; [reflexivity|]. left. auto. }
  destruct (collect_table_schemas (fun _ => Ok rows) tables) as [schemas|m|] eqn:ES;
    [rewrite give_ok in H|rewrite give_err in H; injection H as <- <- <-; cbn [obind]; split; [reflexivity|apply HRes; auto]|rewrite give_panic in H; injection H as <- <- <-; cbn [obind]; split; [reflexivity|apply HRes; auto]].
  cbn [obind]. destruct (PgCollect.collect_scopes norm (lit "public") root) as [sn|m|] eqn:ESn;
    [rewrite give_ok in H|rewrite give_err in H; injection H as <- <- <-; cbn [obind]; split; [reflexivity|apply HRes; auto]|rewrite give_panic in H; injection H as <- <- <-; cbn [obind]; split; [reflexivity|apply HRes; auto]].
  cbn [obind]. destruct (MysqlCollect.first_error sn) as [scopes|m|] eqn:EScp;
    [rewrite give_ok in H|rewrite give_err in H; injection H as <- <- <-; cbn [obind]; split; [reflexivity|apply HRes; auto]|rewrite give_panic in H; injection H as <- <- <-; cbn [obind]; split; [reflexivity|apply HRes; auto]].
  cbn [obind]. destruct (build ord ordf srt schemas scopes) as [its|m|] eqn:EB;
    [rewrite give_ok in H|rewrite give_err in H; injection H as <- <- <-; cbn [obind]; split; [reflexivity|apply HRes; auto]|rewrite give_panic in H; injection H as <- <- <-; cbn [obind]; split; [reflexivity|apply HRes; auto]].
  cbn [obind]. rewrite remove_steps. unfold pg_ask_indexes in H.
  destruct (pg_request pg_index_template db (table_names its)) as [rq2|m|] eqn:E2.
  2:{ apply andthen_inv in H. destruct H as (tr1 & w1 & r1 & Hp & H). rewrite give_err in Hp. injection Hp as <- <- <-. destruct H as (-> & -> & ->).
      split; [|apply HRes; auto]. destruct (table_names its) as [|t0 l]; [change (pg_request pg_index_template db []) with (@Err request (in_message ++ empty_in_message)) in E2; injection E2 as <-; reflexivity|].
      unfold pg_get_indexes, pg_indexes. rewrite E2. reflexivity. }
  2:{ unfold pg_request, mysql_request in E2. destruct (sqlx_in pg_index_template [One db; Many (table_names its)]) eqn:EX; try discriminate.
      destruct (table_names its) as [|t0 l]; [discriminate EX|]. rewrite (sqlx_in_two _ _ _ (proj2 (proj2 (proj2 templates_two_marks)))) in EX by discriminate. discriminate EX. }
  assert (HN2 : table_names its <> []) by (intros E; rewrite E in E2; discriminate E2).
  assert (HIx : pg_get_indexes (pg_indexes (at_ (fst (on_select sv w rq1))) db) (table_names its) =
      selected (at_ (fst (on_select sv w rq1))) index_message rq2 pg_scan_index).
  { unfold pg_get_indexes, pg_indexes. rewrite E2. destruct (table_names its); [congruence|reflexivity]. }
  rewrite HIx.
  assert (HTail : forall r, tr2 = [ASelect rq2] -> w' = fst (on_select sv (fst (on_select sv w rq1)) rq2) ->
    steps (fun tables => exists root0 names, @Ok (list PgAst.node) [root] = Ok [root0] /\
               PgCollect.collect_table_names norm so root0 = Ok names /\ MysqlCollect.first_error names = Ok tables)
      (pg_request pg_column_template db) (pg_request pg_index_template db) w (fst (on_select sv w rq1)) w' ([ASelect rq1] ++ tr2) r).
  { intros r0 -> ->. right. exists tables, rq1. split; [now exists root, tn|]. split; [exact E1|]. split; [reflexivity|]. right. exists (table_names its), rq2.
    split; [exact E2|]. split; [|auto]. eapply names_built; eauto. }
  apply andthen_inv in H. destruct H as (tr3 & w3 & r3 & Hp & H).
  rewrite give_ok, select_as_run in Hp. injection Hp as <- <- Er. rewrite Er. clear HIx Er. destruct r3 as [infos|m|]; cbn [obind].
  - destruct H as (tr6 & H & ->). unfold give in H. injection H as <- <- <-. auto.
  - destruct H as (-> & -> & ->). auto.
  - destruct H as (-> & -> & ->). auto.
Qed.
End Pg.
End Opt.

(** ** The examination *)
Section Exam.
Context (db : database W) (create drop : gostring -> index_target -> act) (query : act) (rnds : nat -> N).
Lemma loop_tried : forall its k id w tr w' r, run_loop db w id rnds k its = (tr, w', r) ->
    (exists rs, r = Ok rs /\ all_tried create drop query its (map (statement create drop query) tr)) \/
    (failed r /\ broken_off create drop query its (map (statement create drop query) tr)).
Proof.
  assert (HF : forall m, @failed (list index_result) (Err m)) by (intros m x; discriminate).
  induction its as [|it its IH]; intros k id w tr w' r H; cbn [run_loop] in H.
  - injection H as <- <- <-. left. eexists. split; [reflexivity|constructor].
  - unfold examine in H. destruct (db_create db w _ it) as [w1 [e|]].
    + injection H as <- <- <-. right. split; [apply HF|]. exact (broken_create create drop query _ it its).
    + destruct (db_execute db w1) as [w2 ex]. destruct (db_drop db w2 _ it) as [w3 de].
      destruct ex as [ms|e].
      * destruct de as [e|].
        { injection H as <- <- <-. right. split; [apply HF|]. exact (broken_trial create drop query _ it its). }
        destruct (run_loop db w3 id rnds (S k) its) as [[tr' w4] r'] eqn:E. injection H as <- <- <-.
        destruct (IH _ _ _ _ _ _ E) as [(rs & -> & HT)|(HR & HB)].
        { left. eexists. split; [reflexivity|]. exact (tried_one create drop query _ it its _ HT). }
        right. split; [destruct r'; [elim (HR a eq_refl)|apply HF|intros x; discriminate]|]. exact (broken_later create drop query _ it its _ HB).
      * injection H as <- <- <-. right. split; [apply HF|]. exact (broken_trial create drop query _ it its).
Qed.
Lemma run_tried : forall its unix w tr w' r, run db w unix rnds its = (tr, w', r) ->
    (exists er, r = Ok er /\ examined_all create drop query its (map (statement create drop query) tr)) \/
    (failed r /\ examined_some create drop query its (map (statement create drop query) tr)).
Proof.
  intros its unix w tr w' r H. unfold run in H. destruct (db_execute db w) as [w1 [orig|e]].
  - destruct (run_loop db w1 _ rnds 0 its) as [[tr' w2] r'] eqn:E. injection H as <- <- <-. cbn [map statement].
    destruct (loop_tried _ _ _ _ _ _ _ E) as [(rs & -> & HT)|(HR & HB)].
    + left. eexists. split; [reflexivity|]. eexists. split; [reflexivity|exact HT].
    + right. split; [destruct r'; [elim (HR a eq_refl)|intros x; discriminate|intros x; discriminate]|]. right. eexists. split; [reflexivity|exact HB].
  - injection H as <- <- <-. right. split; [intros x; discriminate|]. now left.
Qed.
End Exam.

(** ** The end of all commands *)
Lemma conclude_talk : forall db create drop query unix rnds vars its runs output html table w tr w' r,
    Forall (fun it => table (it_table it) /\ it_cols it <> []) its ->
    conclude sv (examine_with db create drop query unix rnds vars its) runs output html w = (tr, w', r) ->
    (exists targets, runs = true /\ targets_of table vars targets /\ examined_some create drop query targets tr /\ failed r) \/
    exists exam report, tr = exam ++ report /\
      (if runs then exists targets, targets_of table vars targets /\ examined_all create drop query targets exam else exam = []) /\
      ended AWrite output (fun b e => exists w1, snd (on_write sv w1 output b) = e) report r.
Proof.
  intros db create drop query unix rnds vars its runs output html table w tr w' r HI H.
  unfold conclude in H. apply andthen_inv in H. destruct H as (tr5 & w5 & r5 & H5 & H).
  assert (HEnd : forall er w3 tr9, match output with
      | [] => give (Ok tt)
      | _ => fun w => let '(w1, e) := on_write sv w output (html er) in
                      ([AWrite output (html er)], w1, match e with None => Ok tt | Some m => Err m end)
      end w3 = (tr9, w', r) -> ended AWrite output (fun b e => exists w1, snd (on_write sv w1 output b) = e) tr9 r).
  { clear. intros er w3 tr9 H. destruct output as [|c o]; [left; unfold give in H; injection H as <- _ <-; auto|].
    right. split; [discriminate|]. destruct (on_write sv w3 _ _) as [w10 e] eqn:EW. injection H as <- _ <-. exists (html er), e. split; [reflexivity|]. split; [|reflexivity].
    exists w3. now rewrite EW. }
  destruct runs.
  - apply andthen_inv in H5. destruct H5 as (tr6 & w6 & r6 & H6 & H5). unfold examine_with in H6.
    set (targets := match vars with [] => filter is_safe its | _ :: _ => vars end) in *.
    destruct (Examiner.run db w unix rnds targets) as [[evs w7] r7] eqn:ERun. injection H6 as <- <- <-.
    assert (HTg : targets_of table vars targets).
    { unfold targets, targets_of. destruct vars as [|v vs]; [right|left; split; [reflexivity|discriminate]]. split; [reflexivity|].
      apply Forall_forall. intros it Hit. apply filter_In in Hit. destruct Hit as [Hit Hsf]. rewrite Forall_forall in HI. destruct (HI it Hit) as [I1 I2].
      apply is_safe_exact in Hsf. tauto. }
    destruct (run_tried db create drop query rnds _ _ _ _ _ _ ERun) as [(er & -> & HX)|(HR & HX)].
    + destruct H5 as (tr8 & H8 & ->). unfold give in H8. injection H8 as <- <- <-. destruct H as (tr9 & H9 & ->). rewrite app_nil_r.
      right. do 2 eexists. split; [reflexivity|]. split; [exists targets; split; [exact HTg|exact HX]|]. exact (HEnd _ _ _ H9).
    + left. exists targets. split; [reflexivity|]. split; [exact HTg|].
      assert (HRF : tr5 = map (statement create drop query) evs /\ failed r5).
      { destruct r7 as [er|m|]; [elim (HR er eq_refl)| |]; destruct H5 as (-> & _ & ->); split; auto; intros x; discriminate. }
      destruct HRF as [-> HRF].
      assert (HRF2 : tr = map (statement create drop query) evs /\ failed r).
      { destruct r5 as [er|m|]; [elim (HRF er eq_refl)| |]; destruct H as (-> & _ & ->); split; auto; intros x; discriminate. }
      destruct HRF2 as [-> HRF2]. split; [exact HX|exact HRF2].
  - unfold give in H5. injection H5 as <- <- <-. destruct H as (tr9 & H9 & ->). right. exists [], tr9. split; [reflexivity|]. split; [reflexivity|]. exact (HEnd _ _ _ H9).
Qed.

(** ** Any of the two commands *)
Section Command.
Context {P : Type} (explainp : @prog W P) (suggestp : @prog W (list index_target))
  (db : database W) (create drop : gostring -> index_target -> gostring)
  (html : P -> list index_target -> option examination_result -> build_option)
  (unix : N) (rnds : nat -> N) (runs : bool) (texts : list gostring) (explain query schema output : gostring) (table : gostring -> Prop).
Definition command : @prog W unit :=
  andthen (give (new_index_targets_from_texts texts)) (fun vars =>
  andthen explainp (fun plan =>
  andthen suggestp (fun its =>
  conclude sv (examine_with db (fun n it => AExec (create n it)) (fun n it => AExec (drop n it)) (AExec query) unix rnds vars its) runs output (html plan its)))).
Hypothesis explains : forall w, exists w' r, explainp w = ([ASelect (explain ++ query, [])], w', r).
Hypothesis suggests : forall w tr w' r, suggestp w = (tr, w', r) ->
  (failed r /\ (tr = [] \/ exists rq, tr = [ASelect rq] /\ asks table schema rq)) \/
  exists rq rq', tr = [ASelect rq; ASelect rq'] /\ asks table schema rq /\ asks table schema rq' /\
    (failed r \/ exists its, r = Ok its /\ Forall (fun it => table (it_table it) /\ it_cols it <> []) its).

Lemma command_conversation : forall w tr w' r, command w = (tr, w', r) ->
    conversation create drop explain query schema output runs (new_index_targets_from_texts texts) table (fun b e => exists w1, snd (on_write sv w1 output b) = e) tr r.
Proof.
  intros w tr w' r H. unfold command in H.
  destruct (new_index_targets_from_texts texts) as [vars|m|] eqn:EV.
  2:{ rewrite give_err in H. injection H as <- <- <-. apply co_options; intros x; discriminate. }
  2:{ rewrite give_panic in H. injection H as <- <- <-. apply co_options; intros x; discriminate. }
  rewrite give_ok in H. apply andthen_inv in H. destruct H as (tr1 & w1 & r1 & H1 & H).
  destruct (explains w) as (w1' & r1' & E). rewrite E in H1. injection H1 as <- <- <-.
  destruct r1' as [plan|m|]; [|destruct H as (-> & -> & ->); eapply co_explain; [reflexivity|intros x; discriminate]
    |destruct H as (-> & -> & ->); eapply co_explain; [reflexivity|intros x; discriminate]].
  destruct H as (tr2 & H & ->). apply andthen_inv in H. destruct H as (tr3 & w3 & r3 & H3 & H).
  destruct (suggests _ _ _ _ H3) as [(HR & HT)|(rq & rq' & -> & A1 & A2 & HR)].
  - assert (HRF : tr2 = tr3 /\ failed r).
    { destruct r3 as [its|m|]; [elim (HR its eq_refl)| |]; destruct H as (-> & _ & ->); split; auto; intros x; discriminate. }
    destruct HRF as [-> HRF]. destruct HT as [->|(rq & -> & HA)].
    + eapply co_explain; eauto.
    + eapply co_columns; eauto.
  - destruct HR as [HR|(its & -> & HI)].
    { assert (HRF : tr2 = [ASelect rq; ASelect rq'] /\ failed r).
      { destruct r3 as [its|m|]; [elim (HR its eq_refl)| |]; destruct H as (-> & _ & ->); split; auto; intros x; discriminate. }
      destruct HRF as [-> HRF]. eapply co_indexes; eauto. }
    destruct H as (tr4 & H & ->). cbn [app].
    destruct (conclude_talk _ _ _ _ _ _ _ _ _ _ _ _ _ _ _ _ HI H) as [(targets & HX & HT & HE & HF)|(exam & report & -> & HE & HR)].
    + eapply co_examine; eauto.
    + eapply co_report; eauto.
Qed.
(** A command that succeeded: what each part gave *)
Lemma command_ok : forall w tr w', command w = (tr, w', Ok tt) ->
    exists vars w1 plan w2 tr2 its er,
      new_index_targets_from_texts texts = Ok vars /\
      explainp w = ([ASelect (explain ++ query, [])], w1, Ok plan) /\
      suggestp w1 = (tr2, w2, Ok its) /\
      (if runs then exists evs w3 er', er = Some er' /\
         Examiner.run db w2 unix rnds (match vars with [] => filter is_safe its | _ => vars end) = (evs, w3, Ok er')
       else er = None) /\
      (output <> [] -> exists before, tr = before ++ [AWrite output (html plan its er)]).
Proof.
  intros w tr w' H. unfold command in H.
  destruct (new_index_targets_from_texts texts) as [vars|m|] eqn:EV; [|rewrite give_err in H; discriminate|rewrite give_panic in H; discriminate].
  rewrite give_ok in H. apply andthen_inv in H. destruct H as (tr1 & w1 & r1 & H1 & H).
  destruct (explains w) as (w1' & r1' & E). rewrite E in H1. injection H1 as <- <- <-.
  destruct r1' as [plan|m|]; [|destruct H as (_ & _ & H); discriminate|destruct H as (_ & _ & H); discriminate].
  destruct H as (tr2 & H & ->). apply andthen_inv in H. destruct H as (tr3 & w3 & r3 & H3 & H).
  destruct r3 as [its|m|]; [|destruct H as (_ & _ & H); discriminate|destruct H as (_ & _ & H); discriminate].
  destruct H as (tr4 & H & ->). unfold conclude in H. apply andthen_inv in H. destruct H as (tr5 & w5 & r5 & H5 & H).
  destruct r5 as [er|m|]; [|destruct H as (_ & _ & H); discriminate|destruct H as (_ & _ & H); discriminate].
  destruct H as (tr6 & H & ->).
  exists vars, w1', plan, w3, tr3, its, er. split; [reflexivity|]. split; [exact E|]. split; [exact H3|]. split.
  - destruct runs.
    + apply andthen_inv in H5. destruct H5 as (tr7 & w7 & r7 & H7 & H5). unfold examine_with in H7.
      destruct (Examiner.run db w3 unix rnds _) as [[evs w8] r8] eqn:ERun. injection H7 as <- <- <-.
      destruct r8 as [er'|m|]; [|destruct H5 as (_ & _ & H5); discriminate|destruct H5 as (_ & _ & H5); discriminate].
      destruct H5 as (tr9 & H9 & _). unfold give in H9. injection H9 as _ _ <-. exists evs, w8, er'. split; reflexivity.
    + unfold give in H5. injection H5 as _ _ <-. reflexivity.
  - intros HO. destruct output as [|c o]; [congruence|]. destruct (on_write sv w5 _ _) as [w10 e]. injection H as <- _ HE.
    exists ([ASelect (explain ++ query, [])] ++ tr3 ++ tr5). now rewrite !app_assoc.
Qed.
End Command.
End Proofs.

Lemma given_columns : forall texts vars, new_index_targets_from_texts texts = Ok vars -> Forall (fun it => it_cols it <> []) vars.
Proof.
  intros texts vars H. apply index_texts_accept_iff in H. induction H as [|t it ts its H1 H IH]; constructor; [|exact IH].
  destruct it as [tn cs]. apply index_text_accept_iff in H1. destruct H1 as (ls & before & line & after & _ & _ & _ & _ & cp & _ & HC).
  cbn [it_cols]. destruct HC; discriminate.
Qed.

(** ** Requests *)
Lemma my_asks : forall (table : gostring -> Prop) t schema tables rq, In t [mysql_column_template; mysql_index_template] ->
    (forall x, In x tables -> table x) -> mysql_request t schema tables = Ok rq -> asks table schema rq.
Proof.
  intros table t schema tables rq HT HA H.
  assert (HN : tables <> []) by (intros ->; cbn [In] in HT; intuition (subst; discriminate)).
  unfold mysql_request in H. cbn [In] in HT. destruct HT as [<-|[<-|[]]].
  - rewrite (sqlx_in_two _ _ _ (proj1 templates_two_marks) HN) in H. injection H as <-.
    exists tables. eexists. split; [exact HN|]. split; [exact HA|]. split; [reflexivity|]. cbn [fst].
    exact (question_text mysql_column_template my_column_query tables (or_introl eq_refl) parse_my_column HN).
  - rewrite (sqlx_in_two _ _ _ (proj1 (proj2 templates_two_marks)) HN) in H. injection H as <-.
    exists tables. eexists. split; [exact HN|]. split; [exact HA|]. split; [reflexivity|]. cbn [fst].
    exact (question_text mysql_index_template my_index_query tables (or_intror (or_introl eq_refl)) parse_my_index HN).
Qed.
Lemma pg_asks : forall (table : gostring -> Prop) t schema tables rq, In t [pg_column_template; pg_index_template] ->
    (forall x, In x tables -> table x) -> pg_request t schema tables = Ok rq -> asks table schema rq.
Proof.
  intros table t schema tables rq HT HA H.
  assert (HN : tables <> []) by (intros ->; cbn [In] in HT; intuition (subst; discriminate)).
  destruct templates_two_marks as (_ & _ & T1 & T2). cbn [In] in HT. destruct HT as [<-|[<-|[]]].
  - rewrite (request_pg _ _ _ _ T1 HN H). exists tables. eexists. split; [exact HN|]. split; [exact HA|]. split; [reflexivity|]. cbn [fst].
    exact (numbered_text pg_column_template pg_column_query tables ltac:(cbn; tauto) parse_pg_column T1 HN).
  - rewrite (request_pg _ _ _ _ T2 HN H). exists tables. eexists. split; [exact HN|]. split; [exact HA|]. split; [reflexivity|]. cbn [fst].
    exact (numbered_text pg_index_template (pg_index_query ((e_ "i" "relname", lit "index_name") :: index_items)) tables ltac:(cbn; tauto) parse_pg_index T2 HN).
Qed.

(** ** Rows of one text *)
Lemma scanned_lines : forall rows ls, scan_all scan_single rows = Ok ls -> Forall2 (fun r s => exists n, r = [(n, VText s)]) rows ls.
Proof.
  induction rows as [|r rows IH]; intros ls H; cbn [scan_all] in H; [injection H as <-; constructor|].
  destruct (scan_single r) as [x|m|] eqn:E1; [|discriminate|discriminate]. cbn [obind] in H.
  destruct (scan_all scan_single rows) as [l|m|]; [|discriminate|discriminate]. injection H as <-. constructor; [|now apply IH].
  unfold scan_single in E1. destruct r as [|[n v] r']; [discriminate|]. destruct v, r'; try discriminate. injection E1 as ->. now exists n.
Qed.
