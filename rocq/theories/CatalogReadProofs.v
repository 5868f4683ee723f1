(** What the readers of the three commands make of the answers of the catalogs. *)
From Coq Require Import String List NArith ZArith Bool Lia Arith Sorting Permutation.
From Verif Require Import Base Dec IndexText IndexBuild TableFields Existing ExistingSpec Hasura PgArray SqlServer MetaSql Catalog CatalogSpec
  MetaSqlProofs CatalogProofs CatalogPgProofs.
Import ListNotations.

Lemma hasura_two_marks : two_marks column_template /\ two_marks index_template.
Proof. split; split; vm_compute; reflexivity. Qed.
Lemma request_pg : forall t schema tables rq, two_marks t -> tables <> [] -> pg_request t schema tables = Ok rq ->
    rq = (rebind 1 (part1 t ++ lit "?" ++ part2 t ++ join (lit ", ") (map (fun _ => lit "?") tables) ++ part3 t), schema :: tables).
Proof.
  intros t schema tables rq HT HN H. unfold pg_request, mysql_request in H. rewrite (sqlx_in_two _ _ _ HT HN) in H. cbn [obind fst snd] in H. congruence.
Qed.

Section Pg.
Variable reserved : gostring -> bool.
Variable coll : gostring -> gostring -> comparison.
Variable cat : pg_catalog.
Let d := pg_database reserved coll cat.
Definition sorted_columns : list quad -> Prop :=
  sorted_by (fun a b => match coll (c_name (q_c a)) (c_name (q_c b)) with Lt => true | Gt => false | Eq => (a_num (q_a a) <? a_num (q_a b))%Z end).

Lemma pg_columns_answer : forall server schema tables rows, answers_from d server -> tables <> [] ->
    pg_columns server schema tables = Ok rows ->
    exists L, Permutation L (filter (wanted coll schema tables) (column_quads cat)) /\ sorted_columns L /\ rows = map typed_column L.
Proof.
  intros server schema tables rows HS HN H. unfold pg_columns in H.
  destruct (pg_request pg_column_template schema tables) as [rq|m|] eqn:ER; cbn [obind] in H; try discriminate.
  destruct templates_two_marks as (_ & _ & HT & _). pose proof (request_pg _ _ _ _ HT HN ER) as ->.
  unfold selected in H. destruct (server _) as [ans|m|] eqn:EA; cbn [obind] in H; try discriminate.
  assert (HA := HS _ _ _ _ EA (numbered_text pg_column_template pg_column_query tables ltac:(cbn; tauto) parse_pg_column HT HN)).
  destruct (column_answers reserved coll cat _ _ _ schema tables ans (gives_args reserved coll cat schema tables) HA) as (L & P1 & P2 & ->).
  exists L. split; [exact P1|split; [exact P2|]].
  rewrite (scan_all_map pg_scan_column column_answer typed_column) in H by (intros x _; reflexivity). congruence.
Qed.
Lemma parse_rows_map : forall {A} (G : A -> list gostring) h l, (forall x, In x l -> parse_column_row (G x) = Ok (h x)) ->
    parse_column_rows (map G l) = Ok (map h l).
Proof.
  intros A G h. induction l as [|x l IH]; intros H; cbn [map parse_column_rows]; auto.
  rewrite H by now left. cbn [obind]. rewrite IH by (intros; apply H; now right). reflexivity.
Qed.
Lemma hasura_columns_answer : forall server schema tables rows, hasura_answers_from d server -> tables <> [] ->
    get_table_columns server schema tables = Ok rows ->
    exists L, Permutation L (filter (wanted coll schema tables) (column_quads cat)) /\ sorted_columns L /\ rows = map typed_column L.
Proof.
  intros server schema tables rows HS HN H. unfold get_table_columns in H.
  destruct (build_query column_template schema tables) as [text|m|] eqn:ER; cbn [obind] in H; try discriminate.
  destruct (server _) as [ans|m|] eqn:EA; cbn [obind] in H; try discriminate.
  destruct hasura_two_marks as [HT _].
  destruct (HS _ _ _ EA (quoted_text column_template pg_column_query schema tables text ltac:(cbn; tauto) parse_hasura_column HT HN ER))
    as (ans' & titles & HA & ->).
  destruct (column_answers reserved coll cat _ _ _ schema tables ans' (gives_texts reserved coll cat [] schema tables) HA) as (L & P1 & P2 & ->).
  exists L. split; [exact P1|split; [exact P2|]].
  cbn [parse_columns] in H. rewrite map_map in H. rewrite (parse_rows_map _ typed_column) in H; [congruence|].
  intros x _. unfold column_answer, typed_column. destruct (is_pk x) eqn:E; cbn; rewrite ?E; reflexivity.
Qed.

Hypothesis coll_iff : forall a b, coll a b = Eq <-> a = b.
Hypothesis sound : pg_sound cat.
Definition indexes_from (schema : gostring) (tables : list gostring) (its : list index_target) : Prop :=
  exists ys, its = map (typed_index reserved cat) ys /\ NoDup ys /\ forall t x, In (t, x) ys <-> In t tables /\ pg_index_of cat schema t x.
Lemma pg_indexes_read : forall server schema tables its, answers_from d server -> tables <> [] ->
    pg_indexes server schema tables = Ok its -> indexes_from schema tables its.
Proof.
  intros server schema tables its HS HN H. unfold pg_indexes in H.
  destruct (pg_request pg_index_template schema tables) as [rq|m|] eqn:ER; cbn [obind] in H; try discriminate.
  destruct templates_two_marks as (_ & _ & _ & HT). pose proof (request_pg _ _ _ _ HT HN ER) as ->.
  unfold selected in H. destruct (server _) as [ans|m|] eqn:EA; cbn [obind] in H; try discriminate.
  assert (HA := HS _ _ _ _ EA (numbered_text pg_index_template (pg_index_query ((e_ "i" "relname", lit "index_name") :: index_items)) tables
    ltac:(cbn; tauto) parse_pg_index HT HN)).
  destruct (index_answers reserved coll cat sound (schema :: tables) [(e_ "i" "relname", lit "index_name")] (fun y => [(lit "index_name", VText (c_name (y_i y)))])
    (EArg 1) (args_from 2 tables) schema tables ans) as (L & P1 & ->).
  - intros y _. reflexivity.
  - apply gives_args.
  - exact HA.
  - pose proof (indexes_read coll cat coll_iff sound schema tables L P1) as [N1 N2].
    exists (map (fun y => (c_name (y_t y), y_x y)) L). split; [|split; [exact N1|exact N2]].
    rewrite (scan_all_map pg_scan_index _ (fun y => typed_index reserved cat (c_name (y_t y), y_x y))) in H by (intros y _; reflexivity).
    rewrite map_map. congruence.
Qed.
Lemma parse_index_rows_map : forall {A} scan (G : A -> list gostring) h l, (forall x, In x l -> parse_index_row scan (G x) = Ok (h x)) ->
    parse_index_rows scan (map G l) = Ok (map h l).
Proof.
  intros A scan G h. induction l as [|x l IH]; intros H; cbn [map parse_index_rows]; auto.
  rewrite H by now left. cbn [obind]. rewrite IH by (intros; apply H; now right). reflexivity.
Qed.
Lemma hasura_indexes_read : forall server schema tables its, hasura_answers_from d server -> tables <> [] ->
    get_indexes server array_in schema tables = Ok its -> indexes_from schema tables its.
Proof.
  intros server schema tables its HS HN H. unfold get_indexes in H.
  destruct (build_query index_template schema tables) as [text|m|] eqn:ER; cbn [obind] in H; try discriminate.
  destruct (server _) as [ans|m|] eqn:EA; cbn [obind] in H; try discriminate.
  destruct hasura_two_marks as [_ HT].
  destruct (HS _ _ _ EA (quoted_text index_template (pg_index_query index_items) schema tables text ltac:(cbn; tauto) parse_hasura_index HT HN ER))
    as (ans' & titles & HA & ->).
  destruct (index_answers reserved coll cat sound [] [] (fun y => []) (EText schema) (map EText tables) schema tables ans') as (L & P1 & ->).
  - intros y _. reflexivity.
  - apply gives_texts.
  - exact HA.
  - pose proof (indexes_read coll cat coll_iff sound schema tables L P1) as [N1 N2].
    exists (map (fun y => (c_name (y_t y), y_x y)) L). split; [|split; [exact N1|exact N2]].
    cbn [parse_indexes] in H. rewrite map_map in H.
    rewrite (parse_index_rows_map array_in _ (fun y => typed_index reserved cat (c_name (y_t y), y_x y))) in H.
    + rewrite map_map. congruence.
    + intros y _. unfold parse_index_row. cbn [app index_answer map nth_error snd cell_text]. now rewrite array_read_back.
Qed.

(** the texts of an index on plain columns with simple names are the names *)
Lemma index_texts_plain : forall x cs, Forall2 (fun c k => (0 < k)%Z /\ pg_column cat (x_rel x) c k /\ safe_ident reserved c = true) cs (x_key x) ->
    index_texts reserved cat x = cs.
Proof.
  intros x cs H. unfold index_texts. generalize (x_exprs x) as exprs. induction H as [|c k cs ks (H1 & (_ & a & A1 & A2 & A3 & A4) & H3) H IH]; intros exprs; [reflexivity|].
  cbn [index_parts]. destruct (Z.eqb_spec k 0); [lia|]. rewrite IH. f_equal.
  assert (HA : attribute_name cat (x_rel x) k = c).
  { unfold attribute_name. destruct (find _ (attributes cat)) as [b|] eqn:E.
    - apply find_some in E. destruct E as [E1 E2]. apply andb_true_iff in E2. destruct E2 as [E2 E3]. apply Z.eqb_eq in E2, E3.
      assert (b = a) as -> by (apply (NoDup_map_eq _ _ _ _ (ps_num _ sound) E1 A1); f_equal; congruence). exact A3.
    - exfalso. pose proof (find_none _ _ E a A1) as HX. cbn in HX. rewrite A2, A4, !Z.eqb_refl in HX. discriminate. }
  unfold quote_ident. now rewrite HA, H3.
Qed.
End Pg.

(** ** Sorted lists of the same elements *)
Lemma sorted_unique : forall {A} (R : A -> A -> Prop) l l', (forall x, ~ R x x) -> (forall x y, R x y -> R y x -> False) ->
    StronglySorted R l -> StronglySorted R l' -> (forall x, In x l <-> In x l') -> l = l'.
Proof.
  intros A R l l' HI HA H. revert l'. induction H as [|x l HS IH HF]; intros l' H' HE.
  - destruct l' as [|y l']; [reflexivity|]. destruct (proj2 (HE y) (or_introl eq_refl)).
  - destruct H' as [|y l' HS' HF']; [destruct (proj1 (HE x) (or_introl eq_refl))|].
    assert (x = y) as <-.
    { destruct (proj1 (HE x) (or_introl eq_refl)) as [->|HX]; [reflexivity|].
      destruct (proj2 (HE y) (or_introl eq_refl)) as [->|HY]; [reflexivity|].
      rewrite Forall_forall in HF, HF'. destruct (HA x y); auto. }
    f_equal. apply IH; [exact HS'|]. intros z. specialize (HE z). cbn [In] in HE. rewrite Forall_forall in HF, HF'. split; intros HZ.
    + destruct (proj1 HE (or_intror HZ)) as [<-|H1]; [|exact H1]. destruct (HI x). now apply HF.
    + destruct (proj2 HE (or_intror HZ)) as [<-|H1]; [|exact H1]. destruct (HI x). now apply HF'.
Qed.
