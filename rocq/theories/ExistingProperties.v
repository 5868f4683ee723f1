(** C19-C21, C56, C57: existing indexes, index rows, schemas, and the suggester
    after parsing. *)
From Coq Require Import String List NArith Bool Lia Arith Permutation Sorting.
From Verif Require Import Base IndexText IndexTextProofs IndexBuild IndexBuildSpec IndexBuildProofs TableFields TableFieldsSpec
  TableFieldsProofs BuildSpec BuildProofs BuildProperties Existing ExistingSpec ExistingProofs.
Import ListNotations.
Local Open Scope string_scope.
Local Open Scope list_scope.

(** ** C19 *)
Theorem existing_indexes_filtered_exactly : forall fold deref get its, NoDup its ->
    (forall m, get (uniq seqb (map (fun p => it_table (deref p)) its)) = Err m -> remove_existing fold deref get its = Err m) /\
    (forall infos, get (uniq seqb (map (fun p => it_table (deref p)) its)) = Ok infos ->
       exists res, remove_existing fold deref get its = Ok res /\
         kept (fun p => ~ exists ex, In ex infos /\ covered fold (deref p) ex) its res).
Proof.
  intros fold deref get its HN. unfold remove_existing.
  rewrite (uniq_id Nat.eqb Nat.eqb_eq its HN). split.
  - intros m E. now rewrite E.
  - intros infos E. rewrite E. simpl. eexists. split; [reflexivity|]. apply remove_matched_spec.
Qed.
Example existing_indexes_filtered_exactly_ex :
  let its := [tgt "users" ["email"]; tgt "users" ["email"; "id"]; tgt "tasks" ["email"]] in
  remove_existing ascii_fold (fun p => nth p its (mk_it [] [])) (fun _ => Ok [tgt "users" ["EMail"]; tgt "users" ["id"; "email"]; tgt "Tasks" ["email"]]) [0; 1; 2]
  = Ok [1; 2].
Proof. vm_compute. reflexivity. Qed.
Print Assumptions existing_indexes_filtered_exactly.

(** The tables asked for are those of the candidates, each once. *)
Theorem tables_asked_once : forall (deref : nat -> index_target) its,
    let names := uniq seqb (map (fun p => it_table (deref p)) its) in
    NoDup names /\ forall t, In t names <-> exists p, In p its /\ it_table (deref p) = t.
Proof.
  intros deref its names. unfold names. split; [apply uniq_NoDup, seqb_eq|].
  intros t. rewrite (uniq_In seqb seqb_eq), in_map_iff. split; intros (p & H1 & H2); eauto.
Qed.
Print Assumptions tables_asked_once.

(** ** C20 *)
Theorem index_rows_grouped : forall rows, rows_sorted rows -> (forall r, In r rows -> fr_table r <> []) ->
    exists gs, to_index_info rows = Ok (map (fun g => mk_it (fst (fst g)) (snd g)) gs) /\
      concat (map index_rows gs) = rows /\ NoDup (map fst gs) /\ Forall (fun g => snd g <> []) gs.
Proof.
  intros rows HS HT. exists (groups rows). split; [|split; [|split]].
  - apply to_index_info_groups. intros [t i c] H E. destruct rows as [|r rows]; [discriminate|]. simpl in H. injection H as ->.
    apply (HT _ (or_introl eq_refl)). unfold row_key in E. simpl in E. simpl. congruence.
  - apply groups_flat.
  - now apply groups_NoDup.
  - apply groups_nonempty.
Qed.
Example index_rows_grouped_ex :
  let rows := [mk_row tasks (lit "PRIMARY") (lit "id"); mk_row tasks (lit "i1") (lit "b"); mk_row tasks (lit "i1") (lit "a"); mk_row users (lit "i1") (lit "x")] in
  rows_sorted rows /\ to_index_info rows = Ok [tgt "tasks" ["id"]; tgt "tasks" ["b"; "a"]; tgt "users" ["x"]].
Proof.
  split; [|vm_compute; reflexivity].
  unfold rows_sorted. repeat constructor; unfold key_lt; vm_compute; intros [H|[H1 H2]]; congruence.
Qed.
Print Assumptions index_rows_grouped.

(** ** C21 *)
Theorem schemas_assembled : forall tables rows,
    create_table_schemas tables rows =
    map (fun t => match filter (fun r => seqb (fst (fst r)) t) rows with [] => None | _ => Some (schema_from t rows) end) tables.
Proof. exact create_spec. Qed.
Example schemas_assembled_ex :
  create_table_schemas [tasks; lit "view"; users] [(users, lit "id", true); (tasks, lit "id", true); (users, lit "name", false); (lit "other", lit "x", true)]
  = [Some (mk_ts tasks [lit "id"] [lit "id"]); None; Some (mk_ts users [lit "id"; lit "name"] [lit "id"])].
Proof. vm_compute. reflexivity. Qed.
Print Assumptions schemas_assembled.

Theorem missing_table_is_error : forall select tables rows, tables <> [] -> select tables = Ok rows ->
    ((forall t, In t tables -> exists c pk, In (t, c, pk) rows) ->
       collect_table_schemas select tables = Ok (map (fun t => schema_from t rows) tables)) /\
    (forall t, In t tables -> (forall c pk, ~ In (t, c, pk) rows) ->
       exists t', In t' tables /\ (forall c pk, ~ In (t', c, pk) rows) /\
         collect_table_schemas select tables = Err (view_message t')).
Proof.
  intros select tables rows Hne HS. unfold collect_table_schemas. rewrite HS.
  destruct tables as [|t0 tables']; [congruence|]. set (tables := t0 :: tables') in *. cbn [obind].
  rewrite check_spec.
  assert (HR : forall t, rows_of t rows = [] <-> forall c pk, ~ In (t, c, pk) rows).
  { intros t. split.
    - intros E c pk HI. assert (HF : In (t, c, pk) (rows_of t rows)) by (apply filter_In; split; auto; apply seqb_refl).
      rewrite E in HF. destruct HF.
    - intros H. destruct (rows_of t rows) as [|[[t1 c] pk] l] eqn:E; auto.
      assert (HF : In (t1, c, pk) (rows_of t rows)) by (rewrite E; now left). apply filter_In in HF. destruct HF as [HF HE].
      simpl in HE. apply seqb_eq in HE. subst. elim (H _ _ HF). }
  split.
  - intros H. destruct (find _ tables) as [t|] eqn:E; auto. apply find_some in E. destruct E as [E1 E2].
    destruct (rows_of t rows) eqn:ER; [|discriminate]. pose proof (proj1 (HR t) ER) as ER2. destruct (H t E1) as (c & pk & HI). elim (ER2 c pk HI).
  - intros t Ht Hn. destruct (find _ tables) as [t'|] eqn:E.
    + apply find_some in E. destruct E as [E1 E2]. exists t'. split; auto. split; auto.
      apply HR. destruct (rows_of t' rows); congruence.
    + exfalso. apply (find_none _ _ E) in Ht. apply HR in Hn. rewrite Hn in Ht. discriminate.
Qed.
Example missing_table_is_error_ex :
  collect_table_schemas (fun _ => Ok [(lit "Users", lit "id", true)]) [users] = Err (view_message users).
Proof. vm_compute. reflexivity. Qed.
Print Assumptions missing_table_is_error.

(** ** C56: a statement for which no index helps. *)
Definition no_help_scope : scope := Scope (lit "<root>") [fld (rf_ "" "id"); fld (cd_ "" "id")] [] [mk_table [] users false] [].
Definition ex_columns (_ : list gostring) : outcome (list (list N * list N * bool)) :=
  Ok [(users, lit "id", true); (users, lit "name", false); (users, lit "email", false);
      (tasks, lit "id", true); (tasks, lit "user_id", false); (tasks, lit "title", false)].
(** Nothing to suggest is reported as a failure, whatever the database answers. *)
Theorem nothing_to_suggest_refuted : exists tables scopes,
    (exists schemas, collect_table_schemas ex_columns tables = Ok schemas /\
       forall ord ordf srt, is_order ord -> is_order ordf -> is_sort itt_less srt -> build ord ordf srt schemas scopes = Ok []) /\
    forall fold ord ordf srt rows rows', is_order ord -> is_order ordf -> is_sort itt_less srt ->
      (exists m, suggest_from fold ord ordf srt ex_columns (mysql_get_indexes rows) tables scopes = Err m) /\
      (exists m, suggest_from fold ord ordf srt ex_columns (pg_get_indexes rows') tables scopes = Err m).
Proof.
  exists [users], [no_help_scope].
  set (schemas := [mk_ts users [lit "id"; lit "name"; lit "email"] [lit "id"]]).
  assert (HC : collect_table_schemas ex_columns [users] = Ok schemas) by (vm_compute; reflexivity).
  assert (HB : forall ord ordf srt, is_order ord -> is_order ordf -> is_sort itt_less srt -> build ord ordf srt schemas [no_help_scope] = Ok []).
  { intros ord ordf srt Ho Hof Hs.
    assert (H1 : forall p (x : gostring), ord p [x] = [x]) by (intros p x; apply Permutation_length_1_inv, Permutation_sym, Ho).
    assert (H0 : forall p, ord p [] = []) by (intros p; apply Permutation_nil, Permutation_sym, Ho).
    assert (F1 : forall p (x : ifield), ordf p [x] = [x]) by (intros p x; apply Permutation_length_1_inv, Permutation_sym, Hof).
    assert (F0 : forall p, ordf p [] = []) by (intros p; apply Permutation_nil, Permutation_sym, Hof).
    assert (HT : table_fields ord (schema_map schemas) [0; 0] no_help_scope = Ok [(users, [(lit "id", FCondition)])]).
    { vm_compute. rewrite ?H1, ?H0. vm_compute. reflexivity. }
    unfold build, build_scopes, build_from_scope. simpl app. rewrite HT. cbn [obind].
    unfold entries, keys. cbn [map fst]. rewrite H1. cbn [flat_map app].
    replace (mget [(users, [(lit "id", FCondition)])] users) with (Some [(lit "id", FCondition)]) by (vm_compute; reflexivity).
    cbn [app scope_targets]. replace (mget (schema_map schemas) (fst (users, [(lit "id", FCondition)]))) with (Some (mk_ts users [lit "id"; lit "name"; lit "email"] [lit "id"])) by (vm_compute; reflexivity).
    assert (HI : forall p, index_composition ordf p [(lit "id", FCondition)] [lit "id"] = []).
    { intros p. unfold index_composition, extract_efficient. cbn [length composite mapi mapi_from]. rewrite F1.
      unfold mapi. cbn [mapi_from]. vm_compute. reflexivity. }
    cbn [obind snd ts_pks]. rewrite HI. cbn. pose proof (proj1 (Hs [])) as HP. apply Permutation_sym, Permutation_nil in HP. now rewrite HP. }
  split; [exists schemas; auto|].
  intros fold ord ordf srt rows rows' Ho Hof Hs. unfold suggest_from. rewrite HC. cbn [obind].
  rewrite (HB ord ordf srt Ho Hof Hs). cbn. split; eexists; reflexivity.
Qed.
Print Assumptions nothing_to_suggest_refuted.

(** ** C57: what is suggested in the end *)
Theorem suggestions_useful_and_new : forall fold ord ordf srt columns indexes tables scopes its rows,
    is_order ord -> is_order ordf -> is_sort itt_less srt ->
    columns tables = Ok rows ->
    suggest_from fold ord ordf srt columns indexes tables scopes = Ok its ->
    exists names infos, indexes names = Ok infos /\ (forall t, In t names -> In t tables) /\
      forall it, In it its ->
        In (it_table it) names /\
        In (it_table it) tables /\ it_cols it <> [] /\ NoDup (it_cols it) /\
        (forall c, In c (it_cols it) -> exists pk, In (it_table it, c, pk) rows) /\
        (exists c, In c (it_cols it) /\ ~ In (it_table it, c, true) rows) /\
        (forall ex, In ex infos -> it_table ex = it_table it -> ~ Forall2 (same_name fold) (it_cols it) (it_cols ex)).
Proof.
  intros fold ord ordf srt columns indexes tables scopes its rows Ho Hof Hs HC H. unfold suggest_from in H.
  destruct (collect_table_schemas columns tables) as [schemas|m|] eqn:ES; cbn [obind] in H; try discriminate.
  destruct (build ord ordf srt schemas scopes) as [its0|m|] eqn:EB; cbn [obind] in H; try discriminate.
  set (deref := fun p => nth p its0 (mk_it [] [])) in *.
  destruct (remove_existing fold deref indexes (seq 0 (length its0))) as [res|m|] eqn:ER; cbn [obind] in H; try discriminate.
  inversion H; subst its; clear H.
  pose proof (existing_indexes_filtered_exactly fold deref indexes _ (seq_NoDup (length its0) 0)) as [_ HF].
  set (names := uniq seqb (map (fun p => it_table (deref p)) (seq 0 (length its0)))) in *.
  assert (HG : exists infos, indexes names = Ok infos).
  { unfold remove_existing in ER. rewrite (uniq_id Nat.eqb Nat.eqb_eq) in ER by apply seq_NoDup. fold names in ER.
    destruct (indexes names); try discriminate. eauto. }
  destruct HG as [infos HG]. exists names, infos. split; auto.
  destruct (HF infos HG) as (res' & ER' & HK). assert (res' = res) by congruence. subst res'.
  assert (HSch : schemas = map (fun t => schema_from t rows) tables).
  { unfold collect_table_schemas in ES. destruct tables as [|t0 tables']; [discriminate|]. rewrite HC in ES. cbn [obind] in ES.
    rewrite check_spec in ES. destruct (find _ _); [discriminate|]. congruence. }
  assert (HT : forall ts t, In ts schemas -> ts_name ts = t -> In t tables /\ ts = schema_from t rows).
  { intros ts t HI HN'. rewrite HSch in HI. apply in_map_iff in HI. destruct HI as (t' & <- & HI). simpl in HN'. subst. auto. }
  split.
  { intros t Ht. apply (tables_asked_once deref (seq 0 (length its0))) in Ht. destruct Ht as (p & Hp & <-). apply in_seq in Hp.
    assert (HIn : In (deref p) its0) by (apply nth_In; lia).
    destruct (suggestions_well_formed _ _ _ _ _ _ Ho Hof Hs EB _ HIn) as (_ & _ & ts & T1 & T2 & _). now destruct (HT _ _ T1 T2). }
  intros it HI. apply in_map_iff in HI. destruct HI as (p & <- & Hp). apply (kept_In _ _ _ _ HK) in Hp. destruct Hp as [Hp HN].
  apply in_seq in Hp.
  assert (HIn : In (deref p) its0) by (apply nth_In; lia).
  destruct (suggestions_well_formed _ _ _ _ _ _ Ho Hof Hs EB _ HIn) as (W1 & W2 & ts & T1 & T2 & c & C1 & C2).
  destruct (suggested_columns_exist _ _ _ _ _ _ Ho Hof Hs EB _ HIn) as (ts' & T1' & T2' & HCols).
  destruct (HT _ _ T1 T2) as [T3 ->]. destruct (HT _ _ T1' T2') as [_ ->].
  split. { apply (tables_asked_once deref (seq 0 (length its0))). exists p. split; auto. apply in_seq. lia. }
  split; auto. split; auto. split; auto. split; [|split].
  - intros c' Hc'. apply HCols in Hc'. simpl in Hc'. apply in_map_iff in Hc'. destruct Hc' as ([[t1 c1] pk] & <- & Hr).
    apply filter_In in Hr. destruct Hr as [Hr HE]. simpl in *. apply seqb_eq in HE. subst. eauto.
  - exists c. split; auto. intros HI. apply C2. simpl. apply in_map_iff. exists (it_table (deref p), c, true). split; auto.
    apply filter_In. split; auto. apply filter_In. split; auto. apply seqb_refl.
  - intros ex Hex Ht HSame. apply HN. exists ex. split; auto. split; auto.
Qed.
Example suggestions_useful_and_new_ex :
  suggest_from ascii_fold id_ord id_ord isort ex_columns (pg_get_indexes (fun _ => Ok [tgt "users" ["EMAIL"]; tgt "tasks" ["title"]]))
    [users; tasks] [ex_scope]
  = Ok [tgt "tasks" ["user_id"]; tgt "tasks" ["user_id"; "title"];
        tgt "users" ["email"; "id"]; tgt "users" ["id"; "email"];
        tgt "users" ["email"; "id"; "name"]; tgt "users" ["id"; "email"; "name"]].
Proof. vm_compute. reflexivity. Qed.
Print Assumptions suggestions_useful_and_new.
