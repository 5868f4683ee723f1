(** C48, C72, C73: Hasura metadata. *)
From Coq Require Import String List NArith Bool Lia Arith Permutation.
From Verif Require Import Base IndexText IndexBuild IndexBuildSpec IndexBuildProofs TableFields TableFieldsSpec TableFieldsProofs
  BuildSpec BuildProofs BuildProperties Existing ExistingSpec ExistingProofs ExistingProperties
  PgAst PgCollect PgSpec PgProofs PgTreeProofs PgRegionProofs PgWalkSpec PgWalkProofs PgFlowProofs PgProperties Hasura HasuraSpec HasuraProofs.
From Verif Require MysqlCollect.
Import ListNotations.
Local Open Scope string_scope.
Local Open Scope list_scope.

(** ** C48 *)
(** A query is made exactly for words, and PostgreSQL reads each name in it as one
    literal in the place of a mark, everything else as in the template; otherwise the
    schema or the first bad table is named. *)
Theorem metadata_query_exact : forall T schema tables, T = column_template \/ T = index_template ->
    (word schema -> Forall word tables -> exists q, build_query T schema tables = Ok q /\ filled T schema tables q) /\
    (forall q, build_query T schema tables = Ok q -> word schema /\ Forall word tables) /\
    (~ word schema -> build_query T schema tables = Err (lit "schema name can contains only a-z or _: " ++ schema)) /\
    (forall a t b, word schema -> tables = a ++ t :: b -> Forall word a -> ~ word t ->
       build_query T schema tables = Err (lit "table name can contains only a-z or _: " ++ t)).
Proof.
  intros T schema tables HT. split; [|split; [|split]].
  - intros Ws Wt. assert (E : exists q, build_query T schema tables = Ok q).
    { unfold build_query. rewrite (proj2 (word_only_ok schema) Ws), (proj2 (check_tables_ok tables) Wt). eexists. reflexivity. }
    destruct E as [q E]. exists q. split; [exact E|]. now apply build_query_filled in E.
  - intros q E. apply build_query_filled in E; [|exact HT]. destruct E as (E1 & E2 & _). now split.
  - intros N. unfold build_query. destruct (word_only schema) eqn:E; [|reflexivity]. apply word_only_ok in E. contradiction.
  - intros a t b Ws -> Wa N. unfold build_query. rewrite (proj2 (word_only_ok schema) Ws).
    assert (E : check_tables (a ++ t :: b) = Err (lit "table name can contains only a-z or _: " ++ t)).
    { apply check_tables_bad. exists a, t, b. split; [reflexivity|]. split; [exact Wa|]. split; [exact N|reflexivity]. }
    now rewrite E.
Qed.
Lemma word_check : forall s, word_only s = true -> word s.
Proof. intros s. apply word_only_ok. Qed.
Example metadata_query_exact_ex :
    word (lit "public") /\ Forall word [lit "users"; lit "tasks"] /\ ~ word (lit "a'b") /\
    (exists q i, build_query column_template (lit "public") [lit "users"; lit "tasks"] = Ok q /\ firstn 20 (skipn i q) = lit "IN ('users','tasks')") /\
    build_query index_template (lit "public") [lit "users"; lit "x') OR ('1'='1"] = Err (lit "table name can contains only a-z or _: x') OR ('1'='1").
Proof.
  split; [apply word_check; reflexivity|]. split; [repeat constructor; apply word_check; reflexivity|].
  split; [intros C; apply word_only_ok in C; discriminate|]. split; [|vm_compute; reflexivity].
  eexists. exists 447. split; vm_compute; reflexivity.
Qed.
Print Assumptions metadata_query_exact.
(** Queries of the same text are for the same schema and tables. *)
Theorem metadata_query_injective : forall T schema schema' tables tables' q, T = column_template \/ T = index_template ->
    build_query T schema tables = Ok q -> build_query T schema' tables' = Ok q -> schema = schema' /\ tables = tables'.
Proof.
  intros T schema schema' tables tables' q HT H H'. apply build_query_filled in H; [|exact HT]. apply build_query_filled in H'; [|exact HT].
  eapply filled_injective; [apply H|apply H'].
Qed.
Print Assumptions metadata_query_injective.
(** With no table the query holds an empty list, which PostgreSQL refuses. *)
Theorem metadata_query_empty : forall T schema, T = column_template \/ T = index_template -> word schema ->
    exists q a b, build_query T schema [] = Ok q /\ q = a ++ lit "IN ()" ++ b.
Proof. exact empty_list_text. Qed.
Print Assumptions metadata_query_empty.

(** ** C72 *)
(** A request is sent only after the names are checked, is read-only and is the filled
    template; the answer depends on nothing else the server would say. *)
Theorem metadata_requests_read_only : forall server server' scan schema tables,
    (forall r T, rs_read_only r = Some true -> T = column_template \/ T = index_template ->
       word schema -> Forall word tables -> filled T schema tables (rs_sql r) -> server r = server' r) ->
    get_table_columns server schema tables = get_table_columns server' schema tables /\
    get_indexes server scan schema tables = get_indexes server' scan schema tables.
Proof.
  intros server server' scan schema tables H. unfold get_table_columns, get_indexes. split.
  - destruct (build_query column_template schema tables) as [q|m|] eqn:E; cbn [obind]; try reflexivity.
    apply build_query_filled in E; [|now left]. destruct E as (E1 & E2 & E3). rewrite (H _ column_template); auto.
  - destruct (build_query index_template schema tables) as [q|m|] eqn:E; cbn [obind]; try reflexivity.
    apply build_query_filled in E; [|now right]. destruct E as (E1 & E2 & E3). rewrite (H _ index_template); auto.
Qed.
(** A server that answers only read-only requests *)
Definition rows_server (rows : list (list gostring)) : sql_server :=
  fun r => match rs_read_only r with Some true => Ok rows | _ => Err (lit "not allowed") end.
Example metadata_requests_read_only_ex :
    get_table_columns (rows_server [[lit "table_name"; lit "column_name"; lit "is_pk"]; [lit "users"; lit "id"; lit "t"]; [lit "users"; lit "name"; lit "f"]])
      (lit "public") [lit "users"] = Ok [(lit "users", lit "id", true); (lit "users", lit "name", false)].
Proof. vm_compute. reflexivity. Qed.
Print Assumptions metadata_requests_read_only.
(** Columns are read from every row but the first; rows of fewer than three cells crash. *)
Theorem column_rows_exact : forall server schema tables q, build_query column_template schema tables = Ok q ->
    (forall m, server {| rs_sql := q; rs_read_only := Some true |} = Err m -> get_table_columns server schema tables = Err m) /\
    (forall rows, server {| rs_sql := q; rs_read_only := Some true |} = Ok rows ->
       (forall cols, get_table_columns server schema tables = Ok cols <-> Forall2 column_row (tl rows) cols) /\
       (get_table_columns server schema tables = Panic <-> Exists (fun r => length r < 3) (tl rows)) /\
       (forall m, get_table_columns server schema tables <> Err m)).
Proof.
  intros server schema tables q E. unfold get_table_columns. rewrite E. cbn [obind]. split; [intros m ->; reflexivity|].
  intros rows ->. cbn [obind]. rewrite parse_columns_tl. pose proof (column_rows_panic (tl rows)) as P.
  split; [apply column_rows_decode|]. split.
  - split; [intros X; now rewrite X in P|]. intros X. destruct (parse_column_rows (tl rows)) as [cols|m|] eqn:D; [|destruct P|reflexivity].
    exfalso. apply column_rows_decode in D. clear E P. induction D as [|r x l l' Hr D IH]; [inversion X|]. apply column_row_long in Hr. inversion X; subst; [lia|auto].
  - intros m X. now rewrite X in P.
Qed.
Example column_rows_exact_ex : exists q, build_query column_template (lit "public") [lit "users"] = Ok q /\
    rows_server [[]; [lit "users"; lit "id"; lit "t"]] {| rs_sql := q; rs_read_only := Some true |} = Ok [[]; [lit "users"; lit "id"; lit "t"]].
Proof. eexists. split; [vm_compute; reflexivity|reflexivity]. Qed.
Print Assumptions column_rows_exact.
(** Indexes are read from every row but the first; the first row whose array cannot be
    read or that is too short decides the failure. *)
Theorem index_rows_exact : forall server scan schema tables q, build_query index_template schema tables = Ok q ->
    (forall m, server {| rs_sql := q; rs_read_only := Some true |} = Err m -> get_indexes server scan schema tables = Err m) /\
    (forall rows, server {| rs_sql := q; rs_read_only := Some true |} = Ok rows ->
       (forall its, get_indexes server scan schema tables = Ok its <->
          Forall2 (fun r it => index_row scan r (it_table it) (it_cols it)) (tl rows) its) /\
       (forall a r b, tl rows = a ++ r :: b -> (forall x, In x a -> exists t cols, index_row scan x t cols) ->
          (length r < 2 -> get_indexes server scan schema tables = Panic) /\
          (forall t x more m, r = t :: x :: more -> scan x = Err m -> get_indexes server scan schema tables =
             Err (lit "unexpected result from hasura to fetch indexes: not array of string for column names: " ++ m)))).
Proof.
  intros server scan schema tables q E. unfold get_indexes. rewrite E. cbn [obind]. split; [intros m ->; reflexivity|].
  intros rows ->. cbn [obind]. rewrite parse_indexes_tl. split; [apply index_rows_decode|]. intros a r b ->. apply index_rows_stop.
Qed.
(** {a,b} *)
Fixpoint split_comma (s : gostring) : list gostring :=
  match s with
  | [] => [[]]
  | c :: s' => if N.eqb c 44 then [] :: split_comma s' else match split_comma s' with x :: l => (c :: x) :: l | [] => [[c]] end
  end.
Definition simple_scan (s : gostring) : outcome (list gostring) :=
  match s with 123%N :: s' => Ok (split_comma (removelast s')) | _ => Err (lit "no array") end.
Example index_rows_exact_ex :
    get_indexes (rows_server [[]; [lit "users"; lit "{id,name}"]]) simple_scan (lit "public") [lit "users"] = Ok [mk_it (lit "users") [lit "id"; lit "name"]] /\
    get_indexes (rows_server [[]; [lit "users"; lit "{id}"]; [lit "users"; lit "id"]; []]) simple_scan (lit "public") [lit "users"] =
      Err (lit "unexpected result from hasura to fetch indexes: not array of string for column names: no array").
Proof. split; vm_compute; reflexivity. Qed.
Print Assumptions index_rows_exact.

(** ** C73 *)
Lemma hasura_schemas_nonempty : forall server schema t tables,
    hasura_table_schemas server schema (t :: tables) = collect_table_schemas (get_table_columns server schema) (t :: tables).
Proof. reflexivity. Qed.
(** Suggestions depend only on answers to read-only requests. *)
Theorem hasura_suggest_read_only : forall norm fold so ord ordf srt scan server server' parsed,
    (forall r, rs_read_only r = Some true -> server r = server' r) ->
    hasura_suggest norm fold so ord ordf srt scan server parsed = hasura_suggest norm fold so ord ordf srt scan server' parsed.
Proof.
  intros norm fold so ord ordf srt scan server server' parsed H.
  assert (HT : forall tables, hasura_table_schemas server (lit "public") tables = hasura_table_schemas server' (lit "public") tables).
  { intros tables. unfold hasura_table_schemas.
    rewrite (proj1 (metadata_requests_read_only server server' scan (lit "public") tables (fun r T Hr _ _ _ _ => H r Hr))). reflexivity. }
  assert (HI : forall tables, get_indexes server scan (lit "public") tables = get_indexes server' scan (lit "public") tables).
  { intros tables. apply metadata_requests_read_only. auto. }
  unfold hasura_suggest. destruct parsed as [stmts|m|]; cbn [obind]; try reflexivity. destruct stmts as [|root [|? ?]]; try reflexivity.
  destruct (collect_table_names norm so root) as [r|m|]; cbn [obind]; try reflexivity.
  destruct (MysqlCollect.first_error r) as [tables|m|]; cbn [obind]; try reflexivity. rewrite HT.
  destruct (hasura_table_schemas server' (lit "public") tables) as [schemas|m|]; cbn [obind]; try reflexivity.
  destruct (collect_scopes norm (lit "public") root) as [r2|m|]; cbn [obind]; try reflexivity.
  destruct (MysqlCollect.first_error r2) as [scopes|m|]; cbn [obind]; try reflexivity.
  destruct (build ord ordf srt schemas scopes) as [its|m|]; cbn [obind]; try reflexivity.
  unfold remove_existing. now rewrite HI.
Qed.
Print Assumptions hasura_suggest_read_only.
(** The same guarantee as for PostgreSQL (C68). *)
Theorem hasura_suggestions_justified : forall norm fold so ord ordf srt scan server root its,
    (forall l, Permutation (so l) l) -> is_order ord -> is_order ordf -> is_sort itt_less srt ->
    supported norm public root -> distinct root ->
    hasura_suggest norm fold so ord ordf srt scan server (Ok [root]) = Ok its ->
    exists tables rows names infos, (forall t, In t tables <-> table_read norm (fun _ => False) root t) /\ Forall word tables /\
      get_table_columns server public tables = Ok rows /\ get_indexes server scan public names = Ok infos /\
      forall it, In it its ->
        table_read norm (fun _ => False) root (it_table it) /\ it_cols it <> [] /\ NoDup (it_cols it) /\
        (forall c, In c (it_cols it) -> (exists pk, In (it_table it, c, pk) rows) /\ exists m, within root m /\ names_column norm m c) /\
        (exists c, In c (it_cols it) /\ ~ In (it_table it, c, true) rows) /\
        In (it_table it) names /\ (forall ex, In ex infos -> it_table ex = it_table it -> ~ Forall2 (same_name fold) (it_cols it) (it_cols ex)).
Proof.
  intros norm fold so ord ordf srt scan server root its Hso Ho Hof Hs HS HD H. unfold hasura_suggest in H. cbn [obind] in H.
  destruct (collect_table_names norm so root) as [[tables|errs]| |] eqn:ET; cbn [obind MysqlCollect.first_error] in H; try discriminate; [|destruct errs; discriminate].
  destruct (root_tree _ _ _ HS HD) as (nm & sc & _ & _ & ESc & HT). change (lit "public") with public in H. rewrite ESc in H. cbn [obind MysqlCollect.first_error] in H.
  assert (HC : exists rows, get_table_columns server public tables = Ok rows).
  { unfold hasura_table_schemas in H. destruct (get_table_columns server public tables); try discriminate. eauto. }
  destruct HC as [rows HC].
  assert (HW : Forall word tables).
  { unfold get_table_columns in HC. destruct (build_query column_template public tables) as [q| |] eqn:EQ; try discriminate.
    apply build_query_filled in EQ; [|now left]. apply EQ. }
  pose proof (proj2 (pg_table_names_exact norm so root tables Hso ET)) as HTN.
  destruct tables as [|t0 tables0].
  { (* nothing is suggested *)
    unfold hasura_table_schemas in H. rewrite HC in H. cbn [obind create_table_schemas map check_schemas] in H.
    destruct (build ord ordf srt _ [sc]) as [its0|m|] eqn:EB; cbn [obind] in H; try discriminate.
    assert (its0 = []) as ->.
    { destruct its0 as [|it its0]; [reflexivity|]. exfalso. destruct (suggested_columns_exist _ _ _ _ _ _ Ho Hof Hs EB it (or_introl eq_refl)) as (ts & [] & _). }
    unfold remove_existing in H. cbn [length seq uniq map] in H. destruct (get_indexes server scan public _) as [infos|m|] eqn:EG; cbn [obind] in H; try discriminate.
    exists [], rows, (uniq seqb []), infos. split; [exact HTN|]. split; [exact HW|]. split; [exact HC|]. split; [exact EG|]. injection H as <-.
    intros it Hit. exfalso. exact Hit. }
  assert (HSF : suggest_from fold ord ordf srt (get_table_columns server public) (get_indexes server scan public) (t0 :: tables0) [sc] = Ok its) by exact H.
  set (tables := t0 :: tables0) in *.
  destruct (suggestions_useful_and_new _ _ _ _ _ _ _ _ _ _ Ho Hof Hs HC HSF) as (names & infos & HI & HIncl & HU).
  exists tables, rows, names, infos. split; [exact HTN|]. split; [exact HW|]. split; [exact HC|]. split; [exact HI|]. intros it Hit.
  destruct (HU it Hit) as (U0 & U1 & U2 & U3 & U4 & U5 & U6).
  split; [now apply HTN|]. split; [exact U2|]. split; [exact U3|].
  split; [|split; [exact U5|split; [exact U0|exact U6]]]. intros c Hc. split; [now apply U4|].
  unfold suggest_from in HSF. destruct (collect_table_schemas _ tables) as [schemas|m|]; cbn [obind] in HSF; try discriminate.
  destruct (build ord ordf srt schemas [sc]) as [its0|m|] eqn:EB; cbn [obind] in HSF; try discriminate.
  destruct (remove_existing _ _ _ (seq 0 (length its0))) as [res|m|] eqn:ER; cbn [obind] in HSF; try discriminate.
  inversion HSF; subst its; clear HSF. apply in_map_iff in Hit. destruct Hit as (p & Hp & Hit).
  assert (HI0 : In it its0).
  { unfold remove_existing in ER. rewrite (uniq_id Nat.eqb Nat.eqb_eq) in ER by apply seq_NoDup.
    destruct (get_indexes server scan public _) as [infos'|m|] eqn:EG; cbn [obind] in ER; try discriminate. inversion ER; subst res.
    unfold remove_matched in Hit. apply filter_In in Hit. destruct Hit as [Hit _]. apply in_seq in Hit. rewrite <- Hp. apply nth_In. lia. }
  destruct (build_In _ _ _ _ _ _ _ Ho Hs EB HI0) as (path & sc' & ts & x & Hsc & HB & Hx & ->). destruct Hsc as [<-|[]].
  eapply tree_mentions; [exact HT|]. eapply target_mentioned; [exact Ho|exact Hof|exact HB|exact Hx|exact Hc].
Qed.
Print Assumptions hasura_suggestions_justified.
(** Suggesting does not crash when every answer has rows of enough cells. *)
Theorem hasura_suggest_never_crashes : forall norm fold so ord ordf srt scan server parsed,
    (forall x, scan x <> Panic) -> (forall r, server r <> Panic) ->
    (forall ts q rows, filled column_template public ts q -> server {| rs_sql := q; rs_read_only := Some true |} = Ok rows -> Forall (fun x => 3 <= length x) (tl rows)) ->
    (forall ts q rows, filled index_template public ts q -> server {| rs_sql := q; rs_read_only := Some true |} = Ok rows -> Forall (fun x => 2 <= length x) (tl rows)) ->
    (forall l, Permutation (so l) l) -> parsed <> Panic -> parsed <> Ok [] ->
    (forall root, parsed = Ok [root] -> supported norm public root /\ distinct root /\ late_derived root) ->
    hasura_suggest norm fold so ord ordf srt scan server parsed <> Panic.
Proof.
  intros norm fold so ord ordf srt scan server parsed Hscan Hserver HC HI HO HP HN HR.
  assert (BQ : forall T ts, build_query T public ts <> Panic).
  { intros T ts. unfold build_query. destruct (word_only public); [|discriminate]. pose proof (check_tables_never_panics ts). destruct (check_tables ts); try discriminate. congruence. }
  assert (HC' : forall ts, get_table_columns server public ts <> Panic).
  { intros ts X. destruct (build_query column_template public ts) as [q|m|] eqn:E; [|unfold get_table_columns in X; rewrite E in X; discriminate|now apply BQ in E].
    destruct (server {| rs_sql := q; rs_read_only := Some true |}) as [rows|m|] eqn:ES; [| |now apply Hserver in ES].
    - destruct (proj2 (column_rows_exact server public ts q E) rows ES) as (_ & K & _). apply K in X.
      apply build_query_filled in E; [|now left]. destruct E as (_ & _ & E). specialize (HC _ _ _ E ES). rewrite Forall_forall in HC.
      apply Exists_exists in X. destruct X as (x & Hx & L). specialize (HC x Hx). lia.
    - rewrite (proj1 (column_rows_exact server public ts q E) m ES) in X. discriminate. }
  assert (HI' : forall ts, get_indexes server scan public ts <> Panic).
  { intros ts X. unfold get_indexes in X. destruct (build_query index_template public ts) as [q|m|] eqn:E; cbn [obind] in X; [|discriminate|now apply BQ in E].
    destruct (server {| rs_sql := q; rs_read_only := Some true |}) as [rows|m|] eqn:ES; cbn [obind] in X; [|discriminate|now apply Hserver in ES].
    rewrite parse_indexes_tl in X. apply index_rows_panic in X; [|exact Hscan].
    apply build_query_filled in E; [|now right]. destruct E as (_ & _ & E). specialize (HI _ _ _ E ES). rewrite Forall_forall in HI.
    apply Exists_exists in X. destruct X as (x & Hx & L). specialize (HI x Hx). lia. }
  destruct parsed as [stmts|m|]; [|discriminate|congruence].
  destruct stmts as [|root [|? ?]]; [congruence| |discriminate].
  destruct (HR root eq_refl) as (HS & HD & HL). intros H. unfold hasura_suggest in H. cbn [obind] in H.
  pose proof (table_names norm so root HO) as K. destruct (collect_table_names norm so root) as [[tables|errs]| |]; try (destruct K; fail); cbn [obind MysqlCollect.first_error] in H.
  2: { destruct errs; [destruct K; congruence|discriminate]. }
  change (lit "public") with public in H.
  destruct (hasura_table_schemas server public tables) as [schemas|m|] eqn:E2; cbn [obind] in H; try discriminate.
  2: { unfold hasura_table_schemas in E2. destruct (get_table_columns server public tables) as [crows|m|] eqn:E3; cbn [obind] in E2; try discriminate; [|now apply HC' in E3].
       rewrite check_spec in E2. destruct (find _ _); discriminate. }
  destruct (root_tree _ _ _ HS HD) as (nm & sc & _ & _ & E3 & HT). rewrite E3 in H. cbn [obind MysqlCollect.first_error] in H.
  destruct (build ord ordf srt schemas [sc]) as [its|m|] eqn:E4; cbn [obind] in H; try discriminate.
  - unfold remove_existing in H. destruct (get_indexes server scan public _) as [infos|m|] eqn:E5; cbn [obind] in H; try discriminate. now apply HI' in E5.
  - apply (build_never_crashes ord ordf srt schemas [sc]); auto. constructor; [|constructor]. apply (tree_listed norm public nm root _ sc HT HL).
Qed.
(** A server with the tables users and tasks and an index on tasks(user_id) *)
Definition two_tables (r : run_sql) : outcome (list (list gostring)) :=
  match rs_read_only r with
  | Some true =>
      if N.eqb (nth 7 (rs_sql r) 0%N) 10 then
        Ok ([] :: map (fun x : gostring * gostring * bool => [fst (fst x); snd (fst x); if snd x then lit "t" else lit "f"])
              [(lit "users", lit "id", true); (lit "users", lit "name", false); (lit "users", lit "email", false);
               (lit "tasks", lit "id", true); (lit "tasks", lit "user_id", false); (lit "tasks", lit "title", false)])
      else Ok [[]; [lit "tasks"; lit "{user_id}"]]
  | _ => Err (lit "not allowed")
  end.
Definition hasura_ex (parsed : outcome (list node)) : outcome (list index_target) :=
  hasura_suggest low ascii_fold (fun l => l) id_ord id_ord isort simple_scan two_tables parsed.
Example hasura_suggestions_justified_ex : supported low public ex_stmt /\ distinct ex_stmt /\ late_derived ex_stmt /\
  hasura_ex (Ok [ex_stmt]) = Ok [tgt "tasks" ["id"; "user_id"]; tgt "tasks" ["user_id"; "id"];
    tgt "tasks" ["id"; "user_id"; "title"]; tgt "tasks" ["user_id"; "id"; "title"];
    tgt "users" ["email"]; tgt "users" ["email"; "id"]; tgt "users" ["id"; "email"];
    tgt "users" ["email"; "id"; "name"]; tgt "users" ["id"; "email"; "name"]].
Proof. split; [apply ex_supported|]. split; [apply ex_distinct|]. split; [apply (late_check 20); reflexivity|]. vm_compute. reflexivity. Qed.
Example hasura_suggest_never_crashes_ex : (forall x, simple_scan x <> Panic) /\ (forall r, two_tables r <> Panic).
Proof.
  split.
  - intros [|c s]; simpl; [discriminate|]. destruct c as [|p]; [discriminate|]. repeat (destruct p; try discriminate).
  - intros [q [[]|]]; unfold two_tables; simpl; try discriminate. destruct (nth 7 q 0%N =? 10)%N; discriminate.
Qed.
Print Assumptions hasura_suggest_never_crashes.
(** A table whose name is no word, fine for PostgreSQL, is refused: SELECT id FROM "a-b" *)
Theorem hasura_odd_name_refused : forall norm fold so ord ordf srt scan server root tables t,
    (forall l, Permutation (so l) l) -> collect_table_names norm so root = Ok (inl tables) -> In t tables -> ~ word t ->
    exists t', In t' tables /\ ~ word t' /\
      hasura_suggest norm fold so ord ordf srt scan server (Ok [root]) = Err (lit "table name can contains only a-z or _: " ++ t').
Proof.
  intros norm fold so ord ordf srt scan server root tables t Hso HT Hin HN.
  assert (D : exists a t' b, tables = a ++ t' :: b /\ Forall word a /\ ~ word t').
  { clear - Hin HN. induction tables as [|x l IH]; [destruct Hin|]. destruct (word_dec x) as [W|W].
    - destruct Hin as [->|Hin]; [contradiction|]. destruct (IH Hin) as (a & t' & b & -> & F & N). exists (x :: a), t', b. split; [reflexivity|]. split; [now constructor|exact N].
    - exists [], x, l. split; [reflexivity|]. split; [constructor|exact W]. }
  destruct D as (a & t' & b & -> & F & N). exists t'. split; [apply in_or_app; right; now left|]. split; [exact N|].
  unfold hasura_suggest. cbn [obind]. rewrite HT. cbn [obind MysqlCollect.first_error]. unfold hasura_table_schemas, get_table_columns.
  assert (W : word (lit "public")) by (apply word_check; reflexivity).
  destruct (metadata_query_exact column_template (lit "public") (a ++ t' :: b) (or_introl eq_refl)) as (_ & _ & _ & E).
  now rewrite (E a t' b W eq_refl F N).
Qed.
Example hasura_odd_name_refused_ex : collect_table_names low (fun l => l) (sel 0 [se (nm_ "" "id")] [tab "a-b" ""] Nil) = Ok (inl [lit "a-b"]) /\
    hasura_ex (Ok [sel 0 [se (nm_ "" "id")] [tab "a-b" ""] Nil]) = Err (lit "table name can contains only a-z or _: a-b").
Proof. split; vm_compute; reflexivity. Qed.
Print Assumptions hasura_odd_name_refused.
