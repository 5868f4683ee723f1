(** C92, C93, C96: the MySQL command against the catalog of the server. *)
From Coq Require Import String List NArith ZArith Bool Lia Arith Sorting Permutation.
From Verif Require Import Base IndexText IndexBuild IndexBuildSpec IndexBuildProofs TableFields TableFieldsSpec TableFieldsProofs
  BuildSpec BuildProofs BuildProperties Existing ExistingSpec ExistingProofs ExistingProperties
  MysqlAst MysqlCollect MysqlSpec MysqlProofs MysqlProperties
  SqlServer MetaSql Catalog CatalogSpec MetaSqlProofs CatalogProofs CatalogReadProofs SqlRun.
Import ListNotations.
Local Open Scope string_scope.
Local Open Scope list_scope.

(** ** A catalog *)
Definition db := lit "db".
Definition mc (t n k : string) (p : Z) : my_column := mk_mc db (of_string t) (of_string n) (of_string k) p false.
Definition st (t i : string) (k : Z) (c : string) : my_stat := mk_ms db (of_string t) (of_string i) k (Some (of_string c)) None.
Definition my_cat : my_catalog :=
  mk_my [mc "tasks" "title" "" 3; mc "users" "email" "MUL" 3; mc "users" "id" "PRI" 1; mc "tasks" "id" "PRI" 1; mc "users" "name" "" 2; mc "tasks" "user_id" "MUL" 2;
         mk_mc (lit "other") users (lit "x") [] 1 false]
        [st "users" "PRIMARY" 1 "id"; st "users" "by_email" 2 "ID"; st "users" "by_email" 1 "email"; st "tasks" "by_user" 1 "user_id"].
Definition my_db := my_database bytewise my_cat.
Lemma my_cat_sound : my_sound my_cat.
Proof.
  constructor.
  - repeat (constructor; [cbn; intuition discriminate|]). constructor.
  - repeat (constructor; [cbn; intuition discriminate|]). constructor.
  - cbn. intros s H. repeat (destruct H as [<-|H]; [discriminate|]). destruct H.
Qed.
Lemma bytewise_apart : forall cat schema tables, my_names_apart bytewise cat schema tables.
Proof.
  intros cat schema tables. constructor; intros; try (now apply bytewise_iff). apply bytewise_opp.
Qed.

(** ** C92 *)
(** When the server answers, each table gets the columns the catalog has for it in the
    schema, in their order, and those marked PRI as the primary key; a table without
    columns is refused. *)
Theorem mysql_schemas_from_catalog : forall coll cat server schema tables rows,
    my_sound cat -> my_names_apart coll cat schema tables -> answers_from (my_database coll cat) server -> tables <> [] ->
    mysql_columns server schema tables = Ok rows ->
    (exists schemas, collect_table_schemas (mysql_columns server schema) tables = Ok schemas /\
       Forall2 (fun t ts => ts_name ts = t /\ exists cols, my_schema_of cat schema t ts cols /\ cols <> []) tables schemas) \/
    (exists t, In t tables /\ (forall c, ~ my_column_of cat schema t c) /\
       collect_table_schemas (mysql_columns server schema) tables = Err (view_message t)).
Proof.
  intros coll cat server schema tables rows HSo HNa HS HN HR.
  assert (HX : forall t, In t tables -> exists cols, my_schema_of cat schema t (schema_from t rows) cols /\
      rows_of t rows = map (fun c => (mc_table c, mc_name c, seqb (mc_key c) (lit "PRI"))) cols).
  { intros t HT. exact (my_schema_read coll cat server schema tables rows t HSo HNa HS HR HT). }
  assert (HE : forall t, In t tables -> (exists c pk, In (t, c, pk) rows) \/ (forall c pk, ~ In (t, c, pk) rows) /\ forall c, ~ my_column_of cat schema t c).
  { intros t HT. destruct (HX t HT) as (cols & (M1 & _) & HRo).
    assert (HI : forall c pk, In (t, c, pk) rows <-> In (t, c, pk) (rows_of t rows)).
    { intros c pk. unfold rows_of. rewrite filter_In. cbn [fst]. rewrite seqb_refl. tauto. }
    destruct cols as [|c0 cols].
    - right. split; [intros c pk H; apply HI in H; rewrite HRo in H; exact H|]. intros c Hc. now apply M1 in Hc.
    - left. assert (H0 : my_column_of cat schema t c0) by (apply M1; now left). destruct H0 as (_ & _ & E).
      exists (mc_name c0), (seqb (mc_key c0) (lit "PRI")). apply HI. rewrite HRo. left. now rewrite E. }
  destruct (missing_table_is_error (mysql_columns server schema) tables rows HN HR) as [A1 A2].
  assert (HD : (forall t, In t tables -> exists c pk, In (t, c, pk) rows) \/ exists t, In t tables /\ forall c pk, ~ In (t, c, pk) rows).
  { clear - HE. induction tables as [|t tables IH]; [left; intros t []|].
    destruct (HE t (or_introl eq_refl)) as [H|[H _]]; [|right; exists t; split; [now left|exact H]].
    destruct IH as [H1|(t' & H1 & H2)]; [intros; apply HE; now right| |right; exists t'; split; [now right|exact H2]].
    left. intros t' [<-|H']; auto. }
  destruct HD as [HD|(t & HT & HD)].
  - left. rewrite (A1 HD). eexists. split; [reflexivity|].
    assert (HF : forall l, (forall t, In t l -> In t tables) -> Forall2 (fun t ts => ts_name ts = t /\ exists cols, my_schema_of cat schema t ts cols /\ cols <> []) l (map (fun t => schema_from t rows) l)).
    { induction l as [|t l IH]; intros HL; constructor; [|apply IH; intros; apply HL; now right].
      split; [reflexivity|]. assert (HT : In t tables) by (apply HL; now left).
      destruct (HX t HT) as (cols & M1 & HRo). exists cols. split; [exact M1|]. intros ->.
      destruct (HD t HT) as (c & pk & HI). assert (HI' : In (t, c, pk) (rows_of t rows)) by (unfold rows_of; apply filter_In; split; [exact HI|apply seqb_refl]).
      rewrite HRo in HI'. exact HI'. }
    apply HF. auto.
  - right. destruct (A2 t HT HD) as (t' & HT' & HD' & HE'). exists t'. split; [exact HT'|]. split; [|exact HE'].
    destruct (HE t' HT') as [(c & pk & HI)|[_ H]]; [elim (HD' _ _ HI)|exact H].
Qed.
Example mysql_schemas_from_catalog_ex :
  collect_table_schemas (mysql_columns (run_server my_db) db) [users; tasks]
    = Ok [mk_ts users [lit "id"; lit "name"; lit "email"] [lit "id"]; mk_ts tasks [lit "id"; lit "user_id"; lit "title"] [lit "id"]] /\
  collect_table_schemas (mysql_columns (run_server my_db) db) [users; lit "nope"] = Err (view_message (lit "nope")).
Proof. split; vm_compute; reflexivity. Qed.
Print Assumptions mysql_schemas_from_catalog.

(** The message for a table without rows says it is a view.  On MySQL views are not
    refused: their columns are listed as well. *)
Theorem mysql_views_refused_refuted : exists cat schemas, my_sound cat /\ (forall c, In c (my_columns cat) -> mc_view c = true) /\
    collect_table_schemas (mysql_columns (run_server (my_database bytewise cat)) db) [users] = Ok schemas.
Proof.
  exists (mk_my [mk_mc db users (lit "id") [] 1 true] []). eexists. split; [|split; [cbn; intros c [<-|[]]; reflexivity|vm_compute; reflexivity]].
  constructor; cbn; [repeat constructor; intros []|constructor|intros s []].
Qed.
Print Assumptions mysql_views_refused_refuted.
(** A server that ignores the case of names but keeps it (lower_case_table_names=2) says
    Users when asked for users: the existing table is refused as a view. *)
Definition caseless (a b : gostring) : comparison := bytewise (map ascii_low a) (map ascii_low b).
Theorem mysql_kept_case_refuted : exists cat c, my_sound cat /\ my_column_of cat db (lit "Users") c /\ mc_view c = false /\
    caseless (lit "Users") users = Eq /\
    mysql_columns (run_server (my_database caseless cat)) db [users] = Ok [(lit "Users", lit "id", true)] /\
    collect_table_schemas (mysql_columns (run_server (my_database caseless cat)) db) [users] = Err (view_message users).
Proof.
  exists (mk_my [mk_mc db (lit "Users") (lit "id") (lit "PRI") 1 false] []), (mk_mc db (lit "Users") (lit "id") (lit "PRI") 1 false).
  split; [constructor; cbn; [repeat constructor; intros []|constructor|intros s []]|].
  split; [split; [now left|split; reflexivity]|]. split; [reflexivity|]. split; [vm_compute; reflexivity|]. split; vm_compute; reflexivity.
Qed.
Print Assumptions mysql_kept_case_refuted.

(** ** C93 *)
(** The indexes read are those the catalog has for the tables in the schema, one for
    each, with the columns in the order of the index. *)
Theorem mysql_indexes_from_catalog : forall coll cat server schema tables its,
    my_sound cat -> my_names_apart coll cat schema tables -> answers_from (my_database coll cat) server ->
    mysql_get_indexes (mysql_indexes server schema) tables = Ok its ->
    exists gs, my_indexes_of cat schema tables its gs.
Proof. intros. eapply my_indexes_read; eauto. Qed.
Example mysql_indexes_from_catalog_ex :
  mysql_get_indexes (mysql_indexes (run_server my_db) db) [users; tasks]
  = Ok [tgt "tasks" ["user_id"]; tgt "users" ["id"]; tgt "users" ["email"; "ID"]].
Proof. vm_compute. reflexivity. Qed.
Print Assumptions mysql_indexes_from_catalog.
(** An index on an expression, which has no column, makes reading fail altogether,
    whatever the statement. *)
Theorem mysql_functional_index_fails : forall coll cat server schema tables s,
    my_names_apart coll cat schema tables -> answers_from (my_database coll cat) server ->
    In s (my_stats cat) -> ms_schema s = schema -> In (ms_table s) tables -> ms_col s = None ->
    forall its, mysql_get_indexes (mysql_indexes server schema) tables <> Ok its.
Proof. intros. eapply my_functional_index; eauto. Qed.
Example mysql_functional_index_fails_ex :
  mysql_get_indexes (mysql_indexes (run_server (my_database bytewise (mk_my (my_columns my_cat) (mk_ms db users (lit "f") 1 None None :: my_stats my_cat)))) db) [users]
  = Err (index_message ++ scan_message (lit "COLUMN_NAME")).
Proof. vm_compute. reflexivity. Qed.
Print Assumptions mysql_functional_index_fails.

(** ** C96 *)
(** Suggestions against the catalog (the two questions may find the server in different
    states, as long as the catalog is the same): on tables the statement reads, of columns the tables
    have, not only of the primary key, and no index of the catalog has the same columns. *)
Theorem mysql_suggestions_against_catalog : forall low fold so ord ordf srt coll cat server server' schema root rest its,
    (forall l, Permutation (so l) l) -> is_order ord -> is_order ordf -> is_sort itt_less srt ->
    my_sound cat -> answers_from (my_database coll cat) server -> answers_from (my_database coll cat) server' ->
    (forall tables, (forall t, In t tables -> reads low (fun _ => False) root t) -> my_names_apart coll cat schema tables) ->
    mysql_suggest low fold so ord ordf srt (mysql_columns server schema) (mysql_indexes server' schema) (Ok (root :: rest)) = Ok its ->
    forall it, In it its ->
      reads low (fun _ => False) root (it_table it) /\ it_cols it <> [] /\ NoDup (it_cols it) /\
      (forall c, In c (it_cols it) -> exists col, my_column_of cat schema (it_table it) col /\ mc_name col = c) /\
      (exists c, In c (it_cols it) /\ forall col, my_column_of cat schema (it_table it) col -> mc_name col = c -> mc_key col <> lit "PRI") /\
      (forall i parts, parts <> [] -> (forall s, In s parts <-> my_part_of cat schema (it_table it) i s) ->
         StronglySorted (fun a b => (ms_seq a < ms_seq b)%Z) parts ->
         ~ Forall2 (fun c s => exists n, ms_col s = Some n /\ same_name fold c n) (it_cols it) parts).
Proof.
  intros low fold so ord ordf srt coll cat server server' schema root rest its Hso Ho Hof Hs HSo HS HS' HNa H.
  destruct (mysql_suggest_inv _ _ _ _ _ _ _ _ _ _ H) as (root' & rest' & tables & scopes & HP & HT & _ & HF).
  injection HP as <- <-. clear H. intros it HI.
  assert (HC : exists rows, mysql_columns server schema tables = Ok rows).
  { unfold suggest_from, collect_table_schemas in HF. destruct tables; [discriminate|]. destruct (mysql_columns _ _ _); try discriminate. eauto. }
  destruct HC as [rows HC].
  destruct (suggestions_useful_and_new _ _ _ _ _ _ _ _ _ _ Ho Hof Hs HC HF) as (names & infos & HIx & HIncl & HU).
  destruct (HU it HI) as (U0 & U1 & U2 & U3 & U4 & U5 & U6).
  pose proof (mysql_table_names_exact low so root tables Hso HT) as HTn.
  assert (HA : my_names_apart coll cat schema tables) by (apply HNa; intros t Ht; now apply HTn).
  assert (HA' : my_names_apart coll cat schema names) by (apply HNa; intros t Ht; apply HTn; now apply HIncl).
  destruct (my_schema_read coll cat server schema tables rows (it_table it) HSo HA HS HC U1) as (cols & (M1 & _) & HRo).
  assert (HRow : forall c pk, In (it_table it, c, pk) rows <-> exists col, my_column_of cat schema (it_table it) col /\ mc_name col = c /\ seqb (mc_key col) (lit "PRI") = pk).
  { intros c pk. assert (HE : In (it_table it, c, pk) rows <-> In (it_table it, c, pk) (rows_of (it_table it) rows)).
    { unfold rows_of. rewrite filter_In. cbn [fst]. rewrite seqb_refl. tauto. }
    rewrite HE, HRo, in_map_iff. split.
    - intros (col & E & HCol). injection E as E1 E2 E3. exists col. split; [now apply M1|]. now split.
    - intros (col & HCol & E1 & E2). exists col. pose proof (proj2 (proj2 HCol)) as E0. split; [congruence|now apply M1]. }
  split; [now apply HTn|]. split; [exact U2|]. split; [exact U3|]. split; [|split].
  - intros c Hc. destruct (U4 c Hc) as (pk & Hr). apply HRow in Hr. destruct Hr as (col & H1 & H2 & _). eauto.
  - destruct U5 as (c & Hc & Hn). exists c. split; [exact Hc|]. intros col H1 H2 H3. apply Hn. apply HRow. exists col.
    split; [exact H1|split; [exact H2|]]. rewrite H3. apply seqb_refl.
  - intros i parts HPn HPa HPs HB.
    destruct (my_indexes_read coll cat server' schema names infos HSo HA' HS' HIx) as (gs & G1 & G2 & G3).
    assert (HG : In (it_table it, i) (map fst gs)).
    { apply G1. split; [exact U0|]. destruct parts as [|s parts]; [congruence|]. exists s. apply HPa. now left. }
    apply in_map_iff in HG. destruct HG as (g & Eg & Hg).
    assert (HEx : exists ex, In ex infos /\ it_table ex = fst (fst g) /\ (forall s, In s (snd g) <-> my_part_of cat schema (fst (fst g)) (snd (fst g)) s) /\
      StronglySorted (fun a b => (ms_seq a < ms_seq b)%Z) (snd g) /\ map Some (it_cols ex) = map ms_col (snd g)).
    { clear - G3 Hg. induction G3 as [|x y l l' HXY G3 IH]; [destruct Hg|]. destruct Hg as [->|Hg]; [exists x; split; [now left|exact HXY]|].
      destruct (IH Hg) as (ex & E1 & E2). exists ex. split; [now right|exact E2]. }
    destruct HEx as (ex & E1 & E2 & E3 & E4 & E5). rewrite Eg in E2, E3. cbn [fst snd] in E2, E3.
    assert (HPE : parts = snd g).
    { apply (sorted_unique (fun a b => (ms_seq a < ms_seq b)%Z)); auto; intros; try lia. now rewrite HPa, E3. }
    apply (U6 ex E1 E2). subst parts. clear - HB E5. revert E5. generalize (it_cols ex) as l. induction HB as [|c s cs ss (n & N1 & N2) HB IH]; intros [|x l] E; cbn [map] in E; try discriminate; constructor.
    + injection E as Ex _. rewrite N1 in Ex. injection Ex as ->. exact N2.
    + apply IH. now injection E.
Qed.
(** the catalog has users(email, ID) and tasks(user_id); both are left out *)
Example mysql_suggestions_against_catalog_ex :
  my_sound my_cat /\ answers_from my_db (run_server my_db) /\ (forall tables, my_names_apart bytewise my_cat db tables) /\
  mysql_suggest ascii_low ascii_fold (fun l => l) id_ord id_ord isort (mysql_columns (run_server my_db) db) (mysql_indexes (run_server my_db) db) (Ok [ex_stmt])
  = Ok [tgt "tasks" ["user_id"; "title"]; tgt "users" ["email"]; tgt "users" ["id"; "email"];
        tgt "users" ["email"; "id"; "name"]; tgt "users" ["id"; "email"; "name"]].
Proof.
  split; [apply my_cat_sound|]. split; [apply run_server_answers|]. split; [intros; apply bytewise_apart|]. vm_compute. reflexivity.
Qed.
Print Assumptions mysql_suggestions_against_catalog.
(** An index on the first characters of a column only counts as one on the column: the
    full index is not suggested. *)
Theorem mysql_prefix_index_refuted : exists cat s, my_sound cat /\ In s (my_stats cat) /\ ms_prefix s = Some 1%Z /\
    (forall s', In s' (my_stats cat) -> s' = s) /\ ms_col s = Some (lit "email") /\
    exists its, mysql_suggest ascii_low ascii_fold (fun l => l) id_ord id_ord isort
        (mysql_columns (run_server (my_database bytewise cat)) db) (mysql_indexes (run_server (my_database bytewise cat)) db) (Ok [ex_stmt]) = Ok its /\
      ~ In (tgt "users" ["email"]) its.
Proof.
  exists (mk_my (my_columns my_cat) [mk_ms db users (lit "p") 1 (Some (lit "email")) (Some 1%Z)]), (mk_ms db users (lit "p") 1 (Some (lit "email")) (Some 1%Z)).
  split. { constructor; [exact (ms_col_key _ my_cat_sound)|repeat constructor; intros []|intros s [<-|[]]; discriminate]. }
  split; [now left|]. split; [reflexivity|]. split; [intros s [<-|[]]; reflexivity|]. split; [reflexivity|].
  eexists. split; [vm_compute; reflexivity|]. intros H. repeat (destruct H as [H|H]; [discriminate|]). destruct H.
Qed.
Print Assumptions mysql_prefix_index_refuted.
