(** C94, C95, C97: the PostgreSQL and the Hasura command against the catalogs of the
    server. *)
From Coq Require Import String List NArith ZArith Bool Lia Arith Sorting Permutation.
From Verif Require Import Base IndexText IndexBuild IndexBuildSpec IndexBuildProofs TableFields TableFieldsSpec TableFieldsProofs
  BuildSpec BuildProofs BuildProperties Existing ExistingSpec ExistingProofs ExistingProperties
  PgAst PgCollect PgSpec PgProofs PgTreeProofs PgRegionProofs PgWalkSpec PgWalkProofs PgFlowProofs PgProperties Hasura HasuraSpec HasuraProofs HasuraProperties.
From Verif Require MysqlProperties.
From Verif Require Import PgArray SqlServer MetaSql Catalog CatalogSpec MetaSqlProofs CatalogProofs CatalogPgProofs CatalogReadProofs SqlRun.
Import ListNotations.
Local Open Scope string_scope.
Local Open Scope list_scope.

(** ** A catalog *)
Definition kind_r := lit "r".
Definition pg_cat : pg_catalog :=
  mk_pg [mk_class 10 users 1 kind_r; mk_class 11 tasks 1 kind_r; mk_class 12 users 2 kind_r; mk_class 13 (lit "seen") 1 (lit "v");
         mk_class 14 (lit "parted") 1 (lit "p"); mk_class 20 (lit "users_pkey") 1 (lit "i"); mk_class 21 (lit "by_mail") 1 (lit "i");
         mk_class 22 (lit "tasks_pkey") 1 (lit "i"); mk_class 23 (lit "by_user") 1 (lit "i")]
        [mk_attr 10 (lit "email") 3 false; mk_attr 10 (lit "id") 1 false; mk_attr 10 (lit "name") 2 false; mk_attr 10 (lit "ctid") (-1) false;
         mk_attr 10 (lit "........pg.dropped.4........") 4 true;
         mk_attr 11 (lit "id") 1 false; mk_attr 11 (lit "user_id") 2 false; mk_attr 11 (lit "title") 3 false;
         mk_attr 12 (lit "x") 1 false; mk_attr 13 (lit "id") 1 false; mk_attr 14 (lit "id") 1 false]
        [mk_index 20 10 [1]%Z true 1 [] false; mk_index 21 10 [3; 1]%Z false 2 [] false;
         mk_index 22 11 [1]%Z true 1 [] false; mk_index 23 11 [2; 0]%Z false 2 [lit "lower(title)"] false]
        [mk_ns 1 (lit "public"); mk_ns 2 (lit "other")].
Definition no_words (_ : gostring) : bool := false.
Definition pg_db := pg_database no_words bytewise pg_cat.
Ltac nodup := repeat (constructor; [cbn; intuition discriminate|]); constructor.
Lemma pg_cat_sound : pg_sound pg_cat.
Proof. constructor; vm_compute; nodup. Qed.

(** ** C94 *)
Section Answer.
Variables (reserved : gostring -> bool) (coll : gostring -> gostring -> comparison) (cat : pg_catalog) (schema : gostring).
Hypothesis coll_iff : forall a b, coll a b = Eq <-> a = b.
Hypothesis sound : pg_sound cat.
Lemma schemas_from : forall select tables rows L, tables <> [] -> select tables = Ok rows ->
    Permutation L (filter (wanted coll schema tables) (column_quads cat)) -> sorted_columns coll L -> rows = map typed_column L ->
    (exists schemas, collect_table_schemas select tables = Ok schemas /\
       Forall2 (fun t ts => ts_name ts = t /\ exists o nums, pg_table cat schema t o /\ pg_schema_of cat o ts nums /\ nums <> []) tables schemas) \/
    (exists t, In t tables /\ (~ exists o name num, pg_table cat schema t o /\ pg_column cat o name num) /\
       collect_table_schemas select tables = Err (view_message t)).
Proof.
  intros select tables rows L HN HR P1 P2 ->.
  assert (HI : forall t, rows_of t (map typed_column L) = [] <-> forall c pk, ~ In (t, c, pk) (map typed_column L)).
  { intros t. split.
    - intros E c pk H. assert (HF : In (t, c, pk) (rows_of t (map typed_column L))) by (apply filter_In; split; [exact H|apply seqb_refl]).
      rewrite E in HF. exact HF.
    - intros H. destruct (rows_of t (map typed_column L)) as [|[[t1 c] pk] l] eqn:E; [reflexivity|].
      assert (HF : In (t1, c, pk) (rows_of t (map typed_column L))) by (rewrite E; now left). apply filter_In in HF. destruct HF as [HF HE].
      apply seqb_eq in HE. cbn in HE. subst. elim (H _ _ HF). }
  destruct (missing_table_is_error select tables _ HN HR) as [A1 A2].
  assert (HD : (forall t, In t tables -> rows_of t (map typed_column L) <> []) \/ exists t, In t tables /\ rows_of t (map typed_column L) = []).
  { clear. induction tables as [|t tables IH]; [left; intros t []|].
    destruct (rows_of t (map typed_column L)) eqn:E; [right; exists t; split; [now left|exact E]|].
    destruct IH as [H1|(t' & H1 & H2)]; [|right; exists t'; split; [now right|exact H2]].
    left. intros t' [<-|H']; [congruence|auto]. }
  destruct HD as [HD|(t & HT & HD)].
  - left. rewrite A1.
    2:{ intros t HT. specialize (HD t HT). destruct (rows_of t (map typed_column L)) as [|[[t1 c] pk] l] eqn:E; [congruence|].
        assert (HF : In (t1, c, pk) (rows_of t (map typed_column L))) by (rewrite E; now left). apply filter_In in HF. destruct HF as [HF HE].
        apply seqb_eq in HE. cbn in HE. subst. eauto. }
    eexists. split; [reflexivity|].
    assert (HF : forall l, (forall t, In t l -> In t tables) -> Forall2 (fun t ts => ts_name ts = t /\ exists o nums, pg_table cat schema t o /\ pg_schema_of cat o ts nums /\ nums <> []) l
       (map (fun t => schema_from t (map typed_column L)) l)).
    { induction l as [|t l IH]; intros HL; constructor; [|apply IH; intros; apply HL; now right].
      split; [reflexivity|]. assert (HT : In t tables) by (apply HL; now left).
      pose proof (HD t HT) as HNe. destruct (rows_of t (map typed_column L)) as [|r l'] eqn:E; [congruence|].
      assert (HR' : In r (rows_of t (map typed_column L))) by (rewrite E; now left). unfold rows_of in HR'. apply filter_In in HR'. destruct HR' as [HR1 HR2].
      apply in_map_iff in HR1. destruct HR1 as (x & <- & HX). apply seqb_eq in HR2. cbn in HR2.
      destruct (L_table coll cat coll_iff schema tables L P1 x HX) as [T1 _]. rewrite HR2 in T1.
      destruct (read_schema coll cat coll_iff sound schema tables L P1 P2 t _ HT T1) as (nums & HS).
      exists (c_oid (q_c x)), nums. split; [exact T1|]. split; [exact HS|]. intros ->.
      pose proof (pgs_cols _ _ _ _ HS) as HC. inversion HC as [E0|]. cbn [ts_cols schema_from] in E0. symmetry in E0. apply map_eq_nil in E0. congruence. }
    apply HF. auto.
  - right. destruct (A2 t HT (proj1 (HI t) HD)) as (t' & HT' & HD' & HE'). exists t'. split; [exact HT'|]. split; [|exact HE'].
    apply (read_none coll cat coll_iff schema tables L P1 t' HT'). now apply HI.
Qed.
End Answer.
(** When the server answers, each table gets the columns of the ordinary table of that
    name in the schema: every column that is not a system column, as often as there are
    indexes with it but at least once, in the order of their numbers; the primary key is
    what a primary index has.  What is no such table is refused. *)
Theorem pg_schemas_from_catalog : forall reserved coll cat server schema tables rows,
    (forall a b, coll a b = Eq <-> a = b) -> pg_sound cat -> answers_from (pg_database reserved coll cat) server -> tables <> [] ->
    pg_columns server schema tables = Ok rows ->
    (exists schemas, collect_table_schemas (pg_columns server schema) tables = Ok schemas /\
       Forall2 (fun t ts => ts_name ts = t /\ exists o nums, pg_table cat schema t o /\ pg_schema_of cat o ts nums /\ nums <> []) tables schemas) \/
    (exists t, In t tables /\ (~ exists o name num, pg_table cat schema t o /\ pg_column cat o name num) /\
       collect_table_schemas (pg_columns server schema) tables = Err (view_message t)).
Proof.
  intros reserved coll cat server schema tables rows HC HSo HS HN HR.
  destruct (pg_columns_answer reserved coll cat server schema tables rows HS HN HR) as (L & P1 & P2 & P3).
  exact (schemas_from coll cat schema HC HSo _ tables rows L HN HR P1 P2 P3).
Qed.
Lemma hasura_collects : forall server schema tables, tables <> [] ->
    hasura_table_schemas server schema tables = collect_table_schemas (get_table_columns server schema) tables.
Proof. intros server schema [|t tables] HN; [congruence|reflexivity]. Qed.
Theorem hasura_schemas_from_catalog : forall reserved coll cat server schema tables rows,
    (forall a b, coll a b = Eq <-> a = b) -> pg_sound cat -> hasura_answers_from (pg_database reserved coll cat) server -> tables <> [] ->
    get_table_columns server schema tables = Ok rows ->
    (exists schemas, hasura_table_schemas server schema tables = Ok schemas /\
       Forall2 (fun t ts => ts_name ts = t /\ exists o nums, pg_table cat schema t o /\ pg_schema_of cat o ts nums /\ nums <> []) tables schemas) \/
    (exists t, In t tables /\ (~ exists o name num, pg_table cat schema t o /\ pg_column cat o name num) /\
       hasura_table_schemas server schema tables = Err (view_message t)).
Proof.
  intros reserved coll cat server schema tables rows HC HSo HS HN HR.
  destruct (hasura_columns_answer reserved coll cat server schema tables rows HS HN HR) as (L & P1 & P2 & P3).
  rewrite (hasura_collects _ _ _ HN). exact (schemas_from coll cat schema HC HSo _ tables rows L HN HR P1 P2 P3).
Qed.
(** the columns with an index twice and the dropped column as well; a view and a
    partitioned table are refused *)
Definition ex_schemas : outcome (list table_schema) :=
  Ok [mk_ts users [lit "id"; lit "id"; lit "name"; lit "email"; lit "........pg.dropped.4........"] [lit "id"];
      mk_ts tasks [lit "id"; lit "user_id"; lit "title"] [lit "id"]].
Example pg_schemas_from_catalog_ex :
  collect_table_schemas (pg_columns (run_server pg_db) public) [users; tasks] = ex_schemas /\
  collect_table_schemas (pg_columns (run_server pg_db) public) [users; lit "seen"] = Err (view_message (lit "seen")) /\
  collect_table_schemas (pg_columns (run_server pg_db) public) [lit "parted"] = Err (view_message (lit "parted")).
Proof. split; [|split]; vm_compute; reflexivity. Qed.
Example hasura_schemas_from_catalog_ex :
  hasura_table_schemas (run_hasura pg_db) public [users; tasks] = ex_schemas /\
  hasura_table_schemas (run_hasura pg_db) public [users; lit "seen"] = Err (view_message (lit "seen")).
Proof. split; vm_compute; reflexivity. Qed.
Print Assumptions pg_schemas_from_catalog.
Print Assumptions hasura_schemas_from_catalog.

(** ** C95 *)
(** The indexes read are those on the tables, when the index is in the schema: one for
    each, with the texts PostgreSQL gives for its parts. *)
Theorem pg_indexes_from_catalog : forall reserved coll cat server schema tables its,
    (forall a b, coll a b = Eq <-> a = b) -> pg_sound cat -> answers_from (pg_database reserved coll cat) server -> tables <> [] ->
    pg_indexes server schema tables = Ok its ->
    exists xs, Permutation its (map (fun tx => mk_it (fst tx) (index_texts reserved cat (snd tx))) xs) /\ NoDup xs /\
      forall t x, In (t, x) xs <-> In t tables /\ pg_index_of cat schema t x.
Proof.
  intros reserved coll cat server schema tables its HC HSo HS HN H.
  destruct (pg_indexes_read reserved coll cat HC HSo server schema tables its HS HN H) as (ys & -> & H1 & H2).
  exists ys. split; [apply Permutation_refl|now split].
Qed.
Theorem hasura_indexes_from_catalog : forall reserved coll cat server schema tables its,
    (forall a b, coll a b = Eq <-> a = b) -> pg_sound cat -> hasura_answers_from (pg_database reserved coll cat) server -> tables <> [] ->
    get_indexes server array_in schema tables = Ok its ->
    exists xs, Permutation its (map (fun tx => mk_it (fst tx) (index_texts reserved cat (snd tx))) xs) /\ NoDup xs /\
      forall t x, In (t, x) xs <-> In t tables /\ pg_index_of cat schema t x.
Proof.
  intros reserved coll cat server schema tables its HC HSo HS HN H.
  destruct (hasura_indexes_read reserved coll cat HC HSo server schema tables its HS HN H) as (ys & -> & H1 & H2).
  exists ys. split; [apply Permutation_refl|now split].
Qed.
Definition ex_infos : outcome (list index_target) :=
  Ok [tgt "tasks" ["user_id"; "lower(title)"]; tgt "tasks" ["id"]; tgt "users" ["email"; "id"]; tgt "users" ["id"]].
Example pg_indexes_from_catalog_ex : pg_indexes (run_server pg_db) public [users; tasks] = ex_infos.
Proof. vm_compute. reflexivity. Qed.
Example hasura_indexes_from_catalog_ex : get_indexes (run_hasura pg_db) array_in public [users; tasks] = ex_infos.
Proof. vm_compute. reflexivity. Qed.
Print Assumptions pg_indexes_from_catalog.
Print Assumptions hasura_indexes_from_catalog.

(** ** C97 *)
(** an index on plain columns whose names need no quotes *)
Definition plain_index (reserved : gostring -> bool) (cat : pg_catalog) (x : pg_index) (cs : list gostring) : Prop :=
  Forall2 (fun c k => (0 < k)%Z /\ pg_column cat (x_rel x) c k /\ safe_ident reserved c = true) cs (x_key x).
Section Against.
Variables (reserved : gostring -> bool) (coll : gostring -> gostring -> comparison) (cat : pg_catalog) (schema : gostring).
Hypothesis coll_iff : forall a b, coll a b = Eq <-> a = b.
Hypothesis sound : pg_sound cat.
Lemma rows_column : forall tables L t c pk, Permutation L (filter (wanted coll schema tables) (column_quads cat)) -> 
    In (t, c, pk) (map typed_column L) ->
    exists o num, pg_table cat schema t o /\ pg_column cat o c num.
Proof.
  intros tables L t c pk P1 H. apply in_map_iff in H. destruct H as (x & E & HX). injection E as <- <- <-.
  destruct (L_table coll cat coll_iff schema tables L P1 x HX) as [T1 T2]. eauto.
Qed.
Lemma rows_key : forall tables L t o c num x, Permutation L (filter (wanted coll schema tables) (column_quads cat)) -> In t tables ->
    pg_table cat schema t o -> pg_column cat o c num -> pg_has_index cat o num x -> x_primary x = true -> In (t, c, true) (map typed_column L).
Proof.
  intros tables L t o c num x P1 HT (k & K1 & K2 & K3 & K4 & n & N1 & N2 & N3) (Hge & a & A1 & A2 & A3 & A4) (X1 & X2 & X3) HP.
  apply in_map_iff. exists (((k, a), n), Some x). split; [unfold typed_column, q_c, q_a, is_pk, q_x; cbn [fst snd]; congruence|].
  apply (in_L coll cat coll_iff schema tables L P1). split.
  - apply in_quads_some. subst. repeat (split; [auto; congruence|]). auto.
  - unfold q_n, q_c, q_a. cbn [fst snd]. subst. repeat (split; [auto|]). exact Hge.
Qed.
Lemma new_index : forall names infos it fold, indexes_from reserved cat schema names infos -> In (it_table it) names ->
    (forall ex, In ex infos -> it_table ex = it_table it -> ~ Forall2 (same_name fold) (it_cols it) (it_cols ex)) ->
    forall x cs, pg_index_of cat schema (it_table it) x -> plain_index reserved cat x cs -> ~ Forall2 (same_name fold) (it_cols it) cs.
Proof.
  intros names infos it fold (ys & -> & _ & HY) HN HU x cs HX HP HB.
  apply (HU (typed_index reserved cat (it_table it, x))).
  - apply in_map. apply HY. now split.
  - reflexivity.
  - cbn [typed_index it_cols fst snd]. now rewrite (index_texts_plain reserved cat sound x cs HP).
Qed.
End Against.
(** Suggestions against the catalogs: on tables the statement reads, of columns the table
    of that name in the schema has and the statement names, not only of primary indexes,
    and no index of the table on plain columns has the same ones. *)
Theorem pg_suggestions_against_catalog : forall norm fold so ord ordf srt reserved coll cat server server' schema root its,
    (forall l, Permutation (so l) l) -> is_order ord -> is_order ordf -> is_sort itt_less srt ->
    (forall a b, coll a b = Eq <-> a = b) -> pg_sound cat -> answers_from (pg_database reserved coll cat) server -> answers_from (pg_database reserved coll cat) server' ->
    supported norm public root -> distinct root ->
    pg_suggest norm fold so ord ordf srt (pg_columns server schema) (pg_indexes server' schema) (Ok [root]) = Ok its ->
    forall it, In it its ->
      table_read norm (fun _ => False) root (it_table it) /\ it_cols it <> [] /\ NoDup (it_cols it) /\
      (forall c, In c (it_cols it) ->
         (exists o num, pg_table cat schema (it_table it) o /\ pg_column cat o c num) /\ exists m, within root m /\ names_column norm m c) /\
      (exists c, In c (it_cols it) /\ forall o num x, pg_table cat schema (it_table it) o -> pg_column cat o c num -> pg_has_index cat o num x -> x_primary x = false) /\
      (forall x cs, pg_index_of cat schema (it_table it) x -> plain_index reserved cat x cs -> ~ Forall2 (same_name fold) (it_cols it) cs).
Proof.
  intros norm fold so ord ordf srt reserved coll cat server server' schema root its Hso Ho Hof Hs HC HSo HSv HSv' HSu HD H it HI.
  destruct (pg_suggestions_justified norm fold so ord ordf srt _ _ root its Hso Ho Hof Hs HSu HD H) as (tables & rows & names & infos & HT & HR & HX & HU).
  destruct (HU it HI) as (U1 & U2 & U3 & U4 & U5 & U6 & U7).
  assert (HN : tables <> []) by (intros ->; apply HT in U1; exact U1).
  assert (HN' : names <> []) by (intros ->; exact U6).
  destruct (pg_columns_answer reserved coll cat server schema tables rows HSv HN HR) as (L & P1 & P2 & ->).
  pose proof (pg_indexes_read reserved coll cat HC HSo server' schema names infos HSv' HN' HX) as HXs.
  split; [exact U1|]. split; [exact U2|]. split; [exact U3|]. split; [|split].
  - intros c Hc. destruct (U4 c Hc) as ((pk & Hr) & Hm). split; [|exact Hm]. exact (rows_column coll cat schema HC tables L _ _ _ P1 Hr).
  - destruct U5 as (c & Hc & Hn). exists c. split; [exact Hc|]. intros o num x H1 H2 H3. destruct (x_primary x) eqn:E; [|reflexivity].
    exfalso. apply Hn. apply (rows_key coll cat schema HC tables L _ o c num x P1); auto. now apply HT.
  - exact (new_index reserved cat schema HSo names infos it fold HXs U6 U7).
Qed.
Theorem hasura_suggestions_against_catalog : forall norm fold so ord ordf srt reserved coll cat server root its,
    (forall l, Permutation (so l) l) -> is_order ord -> is_order ordf -> is_sort itt_less srt ->
    (forall a b, coll a b = Eq <-> a = b) -> pg_sound cat -> hasura_answers_from (pg_database reserved coll cat) server ->
    supported norm public root -> distinct root ->
    hasura_suggest norm fold so ord ordf srt array_in server (Ok [root]) = Ok its ->
    forall it, In it its ->
      table_read norm (fun _ => False) root (it_table it) /\ it_cols it <> [] /\ NoDup (it_cols it) /\
      (forall c, In c (it_cols it) ->
         (exists o num, pg_table cat public (it_table it) o /\ pg_column cat o c num) /\ exists m, within root m /\ names_column norm m c) /\
      (exists c, In c (it_cols it) /\ forall o num x, pg_table cat public (it_table it) o -> pg_column cat o c num -> pg_has_index cat o num x -> x_primary x = false) /\
      (forall x cs, pg_index_of cat public (it_table it) x -> plain_index reserved cat x cs -> ~ Forall2 (same_name fold) (it_cols it) cs).
Proof.
  intros norm fold so ord ordf srt reserved coll cat server root its Hso Ho Hof Hs HC HSo HSv HSu HD H it HI.
  destruct (hasura_suggestions_justified norm fold so ord ordf srt _ _ root its Hso Ho Hof Hs HSu HD H) as (tables & rows & names & infos & HT & _ & HR & HX & HU).
  destruct (HU it HI) as (U1 & U2 & U3 & U4 & U5 & U6 & U7).
  assert (HN : tables <> []) by (intros ->; apply HT in U1; exact U1).
  assert (HN' : names <> []) by (intros ->; exact U6).
  destruct (hasura_columns_answer reserved coll cat server public tables rows HSv HN HR) as (L & P1 & P2 & ->).
  pose proof (hasura_indexes_read reserved coll cat HC HSo server public names infos HSv HN' HX) as HXs.
  split; [exact U1|]. split; [exact U2|]. split; [exact U3|]. split; [|split].
  - intros c Hc. destruct (U4 c Hc) as ((pk & Hr) & Hm). split; [|exact Hm]. exact (rows_column coll cat public HC tables L _ _ _ P1 Hr).
  - destruct U5 as (c & Hc & Hn). exists c. split; [exact Hc|]. intros o num x H1 H2 H3. destruct (x_primary x) eqn:E; [|reflexivity].
    exfalso. apply Hn. apply (rows_key coll cat public HC tables L _ o c num x P1); auto. now apply HT.
  - exact (new_index reserved cat public HSo names infos it fold HXs U6 U7).
Qed.
Definition pg_run_in (schema : gostring) (d : database) (parsed : outcome (list node)) : outcome (list index_target) :=
  pg_suggest low ascii_fold (fun l => l) id_ord id_ord isort (pg_columns (run_server d) schema) (pg_indexes (run_server d) schema) parsed.
Definition pg_run := pg_run_in public.
Definition hasura_run (d : database) (parsed : outcome (list node)) : outcome (list index_target) :=
  hasura_suggest low ascii_fold (fun l => l) id_ord id_ord isort array_in (run_hasura d) parsed.
(** users(email, id) is there and left out; the index on tasks has an expression *)
Definition ex_suggested : outcome (list index_target) :=
  Ok [tgt "tasks" ["user_id"]; tgt "tasks" ["id"; "user_id"]; tgt "tasks" ["user_id"; "id"];
      tgt "tasks" ["id"; "user_id"; "title"]; tgt "tasks" ["user_id"; "id"; "title"];
      tgt "users" ["email"]; tgt "users" ["id"; "email"]; tgt "users" ["email"; "id"; "name"]; tgt "users" ["id"; "email"; "name"]].
Example pg_suggestions_against_catalog_ex : pg_sound pg_cat /\ answers_from pg_db (run_server pg_db) /\ supported low public ex_stmt /\ distinct ex_stmt /\
  pg_run pg_db (Ok [ex_stmt]) = ex_suggested.
Proof. split; [apply pg_cat_sound|]. split; [apply run_server_answers|]. split; [apply ex_supported|]. split; [apply ex_distinct|]. vm_compute. reflexivity. Qed.
Example hasura_suggestions_against_catalog_ex : hasura_answers_from pg_db (run_hasura pg_db) /\ exists its, hasura_run pg_db (Ok [ex_stmt]) = Ok its /\ In (tgt "users" ["email"]) its /\
  ~ In (tgt "users" ["email"; "id"]) its.
Proof.
  split; [apply run_hasura_answers|]. eexists. split; [vm_compute; reflexivity|]. split; [cbn; tauto|].
  intros H. repeat (destruct H as [H|H]; [discriminate|]). destruct H.
Qed.
Print Assumptions pg_suggestions_against_catalog.
Print Assumptions hasura_suggestions_against_catalog.

(** What the theorems above leave out is not true. *)
Definition word_order := seqb (lit "order").
(** SELECT id FROM users WHERE "order" = 'x' *)
Definition order_stmt : node := sel 0 [se (nm_ "" "id")] [tab "users" ""] (Where (eq_ (nm_ "" "order") val)).
Definition order_cat : pg_catalog :=
  mk_pg [mk_class 10 users 1 kind_r; mk_class 20 (lit "by_order") 1 (lit "i")]
        [mk_attr 10 (lit "id") 1 false; mk_attr 10 (lit "order") 2 false]
        [mk_index 20 10 [2]%Z false 1 [] false] [mk_ns 1 (lit "public")].
(** An existing index on a column whose name needs quotes is not recognised and suggested
    again. *)
Theorem pg_quoted_column_refuted : pg_sound order_cat /\
    (exists x, pg_index_of order_cat public users x /\ Forall2 (pg_column order_cat (x_rel x)) [lit "order"] (x_key x) /\ x_where x = false) /\
    pg_run (pg_database word_order bytewise order_cat) (Ok [order_stmt]) = Ok [tgt "users" ["order"]; tgt "users" ["order"; "id"]] /\
    hasura_run (pg_database word_order bytewise order_cat) (Ok [order_stmt]) = Ok [tgt "users" ["order"]; tgt "users" ["order"; "id"]].
Proof.
  split; [constructor; vm_compute; nodup|]. split.
  - exists (mk_index 20 10 [2]%Z false 1 [] false). split; [|split; [|reflexivity]].
    + split; [now left|]. split.
      * eexists. split; [right; left; reflexivity|]. split; [reflexivity|]. exists (mk_ns 1 (lit "public")). split; [now left|]. split; reflexivity.
      * exists (mk_class 10 users 1 kind_r). split; [now left|]. split; reflexivity.
    + constructor; [|constructor]. split; [lia|]. exists (mk_attr 10 (lit "order") 2 false). split; [right; now left|]. split; [reflexivity|]. split; reflexivity.
  - split; vm_compute; reflexivity.
Qed.
Print Assumptions pg_quoted_column_refuted.
(** An index for some of the rows only, and one that has the second column only to carry
    it along, count as indexes on the columns: the candidates are not shown. *)
Definition with_indexes (xs : list pg_index) : pg_catalog := mk_pg (classes pg_cat) (attributes pg_cat) xs (namespaces pg_cat).
Definition suggests (cat : pg_catalog) (it : index_target) : bool :=
  match pg_run (pg_database no_words bytewise cat) (Ok [ex_stmt]) with
  | Ok its => existsb (fun x => seqb (it_table x) (it_table it) && seqb (join (lit ",") (it_cols x)) (join (lit ",") (it_cols it))) its
  | _ => false
  end.
Lemma one_index_sound : forall x, pg_sound (with_indexes [x]).
Proof. intros x. destruct pg_cat_sound. constructor; auto. repeat constructor. intros []. Qed.
Theorem pg_partial_index_refuted : exists x its, x_where x = true /\ pg_sound (with_indexes [x]) /\
    pg_run (pg_database no_words bytewise (with_indexes [x])) (Ok [ex_stmt]) = Ok its /\ ~ In (tgt "users" ["email"]) its /\
    suggests (with_indexes []) (tgt "users" ["email"]) = true.
Proof.
  exists (mk_index 21 10 [3]%Z false 1 [] true). eexists. split; [reflexivity|]. split; [apply one_index_sound|].
  split; [vm_compute; reflexivity|]. split; [|vm_compute; reflexivity].
  intros H. repeat (destruct H as [H|H]; [discriminate|]). destruct H.
Qed.
Theorem pg_included_columns_refuted : exists x its, x_keys x = 1 /\ x_key x = [3; 1]%Z /\ pg_sound (with_indexes [x]) /\
    pg_run (pg_database no_words bytewise (with_indexes [x])) (Ok [ex_stmt]) = Ok its /\ ~ In (tgt "users" ["email"; "id"]) its /\
    suggests (with_indexes []) (tgt "users" ["email"; "id"]) = true.
Proof.
  exists (mk_index 21 10 [3; 1]%Z false 1 [] false). eexists. split; [reflexivity|]. split; [reflexivity|]. split; [apply one_index_sound|].
  split; [vm_compute; reflexivity|]. split; [|vm_compute; reflexivity].
  intros H. repeat (destruct H as [H|H]; [discriminate|]). destruct H.
Qed.
Print Assumptions pg_partial_index_refuted.
Print Assumptions pg_included_columns_refuted.
(** A partitioned table, on which indexes can be created, is refused as a view. *)
Theorem pg_partitioned_refused : forall reserved coll cat server schema t c rows,
    (forall a b, coll a b = Eq <-> a = b) -> pg_sound cat -> answers_from (pg_database reserved coll cat) server ->
    In c (classes cat) -> c_name c = t -> c_kind c = lit "p" -> in_schema cat schema c ->
    pg_columns server schema [t] = Ok rows ->
    collect_table_schemas (pg_columns server schema) [t] = Err (view_message t).
Proof.
  intros reserved coll cat server schema t c rows HC HSo HS H1 H2 H3 H4 HR.
  destruct (pg_schemas_from_catalog reserved coll cat server schema [t] rows HC HSo HS) as [(schemas & _ & HF)|(t' & HT & _ & HE)]; [discriminate|exact HR| |].
  - exfalso. inversion HF as [|? ? ? ? HX]; subst. destruct HX as (_ & o & nums & (c' & C1 & C2 & C3 & C4 & n' & N1' & N2' & N3') & _).
    destruct H4 as (n & N1 & N2 & N3).
    assert (n' = n) as -> by (apply (NoDup_map_eq _ _ _ _ (ps_ns_name _ HSo) N1' N1); congruence).
    assert (c' = c) as -> by (apply (NoDup_map_eq _ _ _ _ (ps_name _ HSo) C1 H1); f_equal; congruence).
    rewrite C4 in H3. discriminate.
  - destruct HT as [<-|[]]. exact HE.
Qed.
Example pg_partitioned_refused_ex : exists c, In c (classes pg_cat) /\ c_name c = lit "parted" /\ c_kind c = lit "p" /\ in_schema pg_cat public c /\
  pg_columns (run_server pg_db) public [lit "parted"] = Ok [].
Proof.
  exists (mk_class 14 (lit "parted") 1 (lit "p")). split; [cbn; tauto|]. split; [reflexivity|]. split; [reflexivity|].
  split; [exists (mk_ns 1 (lit "public")); split; [now left|split; reflexivity]|]. vm_compute. reflexivity.
Qed.
Print Assumptions pg_partitioned_refused.
