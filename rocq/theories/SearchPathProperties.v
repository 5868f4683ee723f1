(** C98: which tables DB_SEARCH_PATH chooses. *)
From Coq Require Import String List NArith ZArith Bool Lia Arith Sorting Permutation.
From Verif Require Import Base IndexText IndexBuild IndexBuildSpec IndexBuildProofs TableFields TableFieldsSpec TableFieldsProofs
  BuildSpec BuildProofs BuildProperties Existing ExistingSpec ExistingProofs ExistingProperties
  PgAst PgCollect PgSpec PgProofs PgTreeProofs PgRegionProofs PgWalkSpec PgWalkProofs PgFlowProofs PgProperties Hasura.
From Verif Require MysqlCollect ConnText ConnTextSpec ConnTextProofs ConnTextProperties.
From Verif Require Import PgArray SqlServer MetaSql Catalog CatalogSpec MetaSqlProofs CatalogProofs CatalogPgProofs CatalogReadProofs SqlRun CatalogPgProperties.
Import ListNotations.
Import ConnText ConnTextSpec.
Local Open Scope string_scope.
Local Open Scope list_scope.

(** cmd/db/suggest/postgres.go:46-59 run with 61-75 suggest, as far as the schema goes:
    the schema asked about is that of the configuration *)
Definition pg_command (env : gostring -> gostring) (suggest : gostring -> outcome (list index_target)) : outcome (list index_target) :=
  do c <- pg_config_from_env env;
  suggest (search_path_or_public c).

(** The table an unqualified name means in a session: the first schema of the session's
    path that has a relation of that name (PostgreSQL manual 5.9.3). *)
Definition has_relation (cat : pg_catalog) (s t : gostring) : Prop := exists c, In c (classes cat) /\ c_name c = t /\ in_schema cat s c.
Inductive means (cat : pg_catalog) (t : gostring) : list gostring -> gostring -> Prop :=
| means_here : forall s path, has_relation cat s t -> means cat t (s :: path) s
| means_later : forall s path s', ~ has_relation cat s t -> means cat t path s' -> means cat t (s :: path) s'.

Definition with_search_path (c : pg_config) (p : gostring) : pg_config :=
  mk_pg (pg_user c) (pg_password c) (pg_host c) (pg_port c) (pg_dbname c) p (pg_param_text c).
(** DB_SEARCH_PATH is no part of the connection: the session has the path DB_PARAM_TEXT
    sets, or else the one the server gives to everybody. *)
Theorem search_path_not_sent : forall c p, kv_connection_string (with_search_path c p) = kv_connection_string c.
Proof. intros [u pw h po d sp pt] p. reflexivity. Qed.
Theorem session_path_from_params : forall c params l,
    (forall k v, In (k, v) (set_fields c) -> unescaped v) ->
    pg_param_text c = [] /\ params = [] \/ complete (pg_param_text c) params ->
    settings (kv_connection_string c) = Some l ->
    setting l (lit "search_path") = setting params (lit "search_path").
Proof.
  intros c params l H1 H2 H3. destruct (ConnTextProperties.connection_values_in_force c params l H1 H2 H3) as (_ & K & _).
  rewrite K by discriminate. destruct (setting params (lit "search_path")); [reflexivity|].
  unfold set_fields. destruct (pg_user c), (pg_password c), (pg_host c), (pg_port c), (pg_dbname c); reflexivity.
Qed.
Definition with_path_cfg (p params : string) : pg_config := mk_pg (lit "u") [] [] [] (lit "d") (of_string p) (of_string params).
Example session_path_from_params_ex :
    exists l, settings (kv_connection_string (with_path_cfg "app" "search_path='app, public'")) = Some l /\ setting l (lit "search_path") = Some (lit "app, public") /\
    exists l, settings (kv_connection_string (with_path_cfg "app" "")) = Some l /\ setting l (lit "search_path") = None.
Proof. eexists. split; [vm_compute; reflexivity|]. split; [vm_compute; reflexivity|]. eexists. split; vm_compute; reflexivity. Qed.
Print Assumptions search_path_not_sent.
Print Assumptions session_path_from_params.

Definition meant (cat : pg_catalog) (path : list gostring) (t : gostring) (o : Z) : Prop :=
  exists s c, means cat t path s /\ In c (classes cat) /\ c_oid c = o /\ c_name c = t /\ in_schema cat s c.
(** The table whose catalogs are read is the one the session means just when the session
    finds the name in the schema of the configuration. *)
Theorem schema_read_is_meant : forall cat t path schema o,
    pg_sound cat -> pg_table cat schema t o -> (meant cat path t o <-> means cat t path schema).
Proof.
  intros cat t path schema o HS (c & C1 & C2 & C3 & C4 & n & N1 & N2 & N3). split.
  - intros (s & c' & HM & D1 & D2 & D3 & n' & M1 & M2 & M3).
    assert (c' = c) as -> by (apply (NoDup_map_eq _ _ _ _ (ps_oid _ HS) D1 C1); congruence).
    assert (n' = n) as -> by (apply (NoDup_map_eq _ _ _ _ (ps_ns _ HS) M1 N1); congruence). congruence.
  - intros HM. exists schema, c. split; [exact HM|]. split; [exact C1|]. split; [exact C3|]. split; [exact C2|]. exists n. auto.
Qed.
(** Two schemas with a table users, the one in public indexed *)
Definition two_cat : pg_catalog :=
  Catalog.mk_pg [mk_class 10 users 1 kind_r; mk_class 12 users 2 kind_r; mk_class 21 (lit "by_mail") 1 (lit "i")]
        [mk_attr 10 (lit "id") 1 false; mk_attr 10 (lit "email") 2 false; mk_attr 12 (lit "id") 1 false; mk_attr 12 (lit "email") 2 false]
        [mk_index 21 10 [2]%Z false 1 [] false]
        [mk_ns 1 (lit "public"); mk_ns 2 (lit "app")].
Lemma two_cat_sound : pg_sound two_cat.
Proof. constructor; vm_compute; nodup. Qed.
Lemma two_public : forall s, s = public \/ s = lit "app" -> has_relation two_cat s users.
Proof.
  intros s [-> | ->].
  - exists (mk_class 10 users 1 kind_r). split; [cbn; tauto|]. split; [reflexivity|]. exists (mk_ns 1 (lit "public")). split; [cbn; tauto|]. split; reflexivity.
  - exists (mk_class 12 users 2 kind_r). split; [cbn; tauto|]. split; [reflexivity|]. exists (mk_ns 2 (lit "app")). split; [cbn; tauto|]. split; reflexivity.
Qed.
Example schema_read_is_meant_ex : pg_sound two_cat /\ means two_cat users [lit "app"; public] (lit "app") /\ pg_table two_cat (lit "app") users 12.
Proof.
  split; [apply two_cat_sound|]. split; [constructor; apply two_public; now right|].
  exists (mk_class 12 users 2 kind_r). split; [cbn; tauto|]. split; [reflexivity|]. split; [reflexivity|]. split; [reflexivity|].
  exists (mk_ns 2 (lit "app")). split; [cbn; tauto|]. split; reflexivity.
Qed.
Print Assumptions schema_read_is_meant.

(** A path that is not the name of one schema refuses every statement. *)
Theorem several_schemas_refused : forall norm fold so ord ordf srt reserved coll cat server schema root,
    (forall a b, coll a b = Eq <-> a = b) -> pg_sound cat -> answers_from (pg_database reserved coll cat) server ->
    (forall n, In n (namespaces cat) -> n_name n <> schema) ->
    (forall its, pg_suggest norm fold so ord ordf srt (pg_columns server schema) (pg_indexes server schema) (Ok [root]) <> Ok its) /\
    (forall tables rows, collect_table_names norm so root = Ok (inl tables) -> tables <> [] -> pg_columns server schema tables = Ok rows ->
       exists t, In t tables /\
         pg_suggest norm fold so ord ordf srt (pg_columns server schema) (pg_indexes server schema) (Ok [root]) = Err (view_message t)).
Proof.
  intros norm fold so ord ordf srt reserved coll cat server schema root HC HSo HS HN.
  assert (K : forall tables rows, tables <> [] -> pg_columns server schema tables = Ok rows ->
            exists t, In t tables /\ collect_table_schemas (pg_columns server schema) tables = Err (view_message t)).
  { intros tables rows HT HR. destruct (pg_schemas_from_catalog reserved coll cat server schema tables rows HC HSo HS HT HR) as [(schemas & _ & HF)|(t & H1 & _ & H2)]; [|eauto].
    exfalso. inversion HF as [E|t ts l l' HX]; subst; [congruence|]. destruct HX as (_ & o & nums & (c & _ & _ & _ & _ & n & N1 & _ & N3) & _). exact (HN n N1 N3). }
  split.
  - intros its H. unfold pg_suggest in H. cbn [obind] in H.
    destruct (collect_table_names norm so root) as [r|e|] eqn:E; try discriminate. cbn [obind] in H.
    destruct (MysqlCollect.first_error r) as [tables|e|] eqn:E1; try discriminate. cbn [obind] in H.
    destruct (collect_table_schemas (pg_columns server schema) tables) as [schemas|e|] eqn:E2; try discriminate.
    destruct tables as [|t tables].
    + discriminate E2.
    + destruct (pg_columns server schema (t :: tables)) as [rows|e|] eqn:E3.
      * destruct (K (t :: tables) rows) as (t' & _ & E4); [discriminate|exact E3|congruence].
      * unfold collect_table_schemas in E2. rewrite E3 in E2. discriminate.
      * unfold collect_table_schemas in E2. rewrite E3 in E2. discriminate.
  - intros tables rows E HT HR. destruct (K tables rows HT HR) as (t & H1 & H2). exists t. split; [exact H1|].
    unfold pg_suggest. cbn [obind]. rewrite E. cbn [obind MysqlCollect.first_error]. now rewrite H2.
Qed.
(** SELECT id FROM users WHERE email = 'x' *)
Definition mail_stmt : node := sel 0 [se (nm_ "" "id")] [tab "users" ""] (Where (eq_ (nm_ "" "email") val)).
Definition two_db := pg_database no_words bytewise two_cat.
Definition env_of (path : string) (k : gostring) : gostring :=
  if seqb k (lit "DB_USERNAME") then lit "u" else if seqb k (lit "DB_DATABASE") then lit "d"
  else if seqb k (lit "DB_SEARCH_PATH") then of_string path else [].
Definition run_with (path : string) (stmt : node) : outcome (list index_target) :=
  pg_command (env_of path) (fun schema => pg_run_in schema two_db (Ok [stmt])).
Example several_schemas_refused_ex : (forall n, In n (namespaces two_cat) -> n_name n <> lit "app, public") /\
  run_with "app, public" mail_stmt = Err (view_message users) /\ run_with "" mail_stmt = Ok [tgt "users" ["email"; "id"]].
Proof.
  split; [intros n [<-|[<-|[]]]; discriminate|]. split; vm_compute; reflexivity.
Qed.
Print Assumptions several_schemas_refused.

(** A statement that names the schema it means is refused unless that schema is public,
    whatever DB_SEARCH_PATH says. *)
Theorem qualified_refused : forall norm fold so ord ordf srt columns indexes root s t as_ lateral,
    (forall l, Permutation (so l) l) -> (exists id w b o l, root = Select id w b o l) ->
    reached root (Aliased (TableName [] s t) as_ lateral) -> s <> [] -> s <> lit "public" ->
    exists e, pg_suggest norm fold so ord ordf srt columns indexes (Ok [root]) = Err e.
Proof.
  intros norm fold so ord ordf srt columns indexes root s t as_ lateral HO HR HT H1 H2.
  destruct (pg_table_names_refused norm so root HO HR) as [(_ & HA)|((errs & E & HE) & _)].
  - exfalso. destruct (HA _ HT) as [_ HF]. apply HF. cbn. tauto.
  - unfold pg_suggest. cbn [obind]. rewrite E. cbn [obind]. destruct errs as [|e errs]; [congruence|]. eexists. reflexivity.
Qed.
(** SELECT id FROM app.users WHERE email = 'x', SELECT id FROM public.users ... *)
Definition mail_in (s : string) : node := sel 0 [se (nm_ "" "id")] [Aliased (TableName [] (of_string s) users) [] false] (Where (eq_ (nm_ "" "email") val)).
Example qualified_refused_ex : reached (mail_in "app") (Aliased (TableName [] (lit "app") users) [] false) /\
  exists e, run_with "app" (mail_in "app") = Err e.
Proof.
  split; [|eexists; vm_compute; reflexivity].
  apply reached_in with (k := clause [se (nm_ "" "id")] [Aliased (TableName [] (lit "app") users) [] false] (Where (eq_ (nm_ "" "email") val))); [cbn; tauto|cbn; tauto|discriminate|].
  apply reached_in with (k := From Nil [Aliased (TableName [] (lit "app") users) [] false]); [cbn; tauto|cbn; tauto|discriminate|].
  apply reached_in with (k := Aliased (TableName [] (lit "app") users) [] false); [cbn; tauto|cbn; tauto|discriminate|]. constructor.
Qed.
Print Assumptions qualified_refused.

(** With DB_SEARCH_PATH=app the connection is the same as without, so a session whose path
    is public means public.users; yet the index it has is suggested again, as app.users
    has none.  The statement may even say public.users. *)
Theorem search_path_refuted : pg_sound two_cat /\
    kv_connection_string (with_path_cfg "app" "") = kv_connection_string (with_path_cfg "" "") /\
    means two_cat users [public] public /\
    (exists x, pg_index_of two_cat public users x /\ Forall2 (pg_column two_cat (x_rel x)) [lit "email"] (x_key x)) /\
    run_with "" mail_stmt = Ok [tgt "users" ["email"; "id"]] /\
    run_with "app" mail_stmt = Ok [tgt "users" ["email"]; tgt "users" ["email"; "id"]] /\
    run_with "app" (mail_in "public") = Ok [tgt "users" ["email"]; tgt "users" ["email"; "id"]].
Proof.
  split; [apply two_cat_sound|]. split; [reflexivity|]. split; [constructor; apply two_public; now left|]. split.
  - exists (mk_index 21 10 [2]%Z false 1 [] false). split.
    + split; [now left|]. split.
      * exists (mk_class 21 (lit "by_mail") 1 (lit "i")). split; [cbn; tauto|]. split; [reflexivity|]. exists (mk_ns 1 (lit "public")). split; [now left|]. split; reflexivity.
      * exists (mk_class 10 users 1 kind_r). split; [now left|]. split; reflexivity.
    + constructor; [|constructor]. split; [lia|]. exists (mk_attr 10 (lit "email") 2 false). split; [cbn; tauto|]. split; [reflexivity|]. split; reflexivity.
  - split; [vm_compute; reflexivity|]. split; vm_compute; reflexivity.
Qed.
Print Assumptions search_path_refuted.
