(** Evaluating the metadata queries over the catalogs. *)
From Coq Require Import String List NArith ZArith Bool Lia Arith Sorting Permutation.
From Verif Require Import Base Dec IndexText IndexBuild TableFields Existing ExistingSpec ExistingProofs SqlServer Catalog CatalogSpec MetaSql MetaSqlProofs Hasura.
Import ListNotations.

(** * Queries over typed rows *)
Definition pairs {A B} (p : A -> B -> bool) (l : list A) (bs : list B) : list (A * B) :=
  flat_map (fun a => map (pair a) (filter (p a) bs)) l.
Definition pairs_left {A B} (p : A -> B -> bool) (l : list A) (bs : list B) : list (A * option B) :=
  flat_map (fun a => match filter (p a) bs with [] => [(a, None)] | m => map (fun b => (a, Some b)) m end) l.
Lemma filter_opt_map : forall {A B} (f : B -> option bool) (g : A -> B) p l, (forall x, In x l -> f (g x) = Some (p x)) ->
    filter_opt f (map g l) = Some (map g (filter p l)).
Proof.
  intros A B f g p. induction l as [|x l IH]; intros H; cbn [map filter_opt filter]; auto.
  rewrite H by now left. rewrite IH by (intros; apply H; now right). destruct (p x); reflexivity.
Qed.
Lemma map_opt_map : forall {A B C} (f : B -> option C) (g : A -> B) h l, (forall x, In x l -> f (g x) = Some (h x)) ->
    map_opt f (map g l) = Some (map h l).
Proof.
  intros A B C f g h. induction l as [|x l IH]; intros H; cbn [map map_opt]; auto.
  rewrite H by now left. rewrite IH by (intros; apply H; now right). reflexivity.
Qed.
Lemma concat_flat_map : forall {A B C} (f : A -> list B) (g : B -> C) l, concat (map (fun a => map g (f a)) l) = map g (flat_map f l).
Proof. intros. induction l as [|x l IH]; cbn [map concat flat_map]; auto. now rewrite IH, map_app. Qed.
Lemma join_inner : forall {A B} d args (f : A -> env) (g : B -> row) l bs t on p,
    d_rel d (tr_name t) = Some (map g bs) ->
    (forall a b, holds d args on (f a ++ [(tr_alias t, Some (g b))]) = Some (p a b)) ->
    join_table d args (map f l) false t on = Some (map (fun x => f (fst x) ++ [(tr_alias t, Some (g (snd x)))]) (pairs p l bs)).
Proof.
  intros A B d args f g l bs t on p HD HP. unfold join_table. rewrite HD.
  rewrite (map_opt_map _ f (fun a => map (fun x : A * B => f (fst x) ++ [(tr_alias t, Some (g (snd x)))]) (map (pair a) (filter (p a) bs)))).
  - cbn [option_map]. now rewrite concat_flat_map.
  - intros a _. unfold join_one. rewrite map_map. rewrite (filter_opt_map _ (fun b => f a ++ [(tr_alias t, Some (g b))]) (p a)) by (intros; apply HP).
    rewrite map_map. cbn [fst snd]. destruct (filter (p a) bs); reflexivity.
Qed.
Lemma join_left : forall {A B} d args (f : A -> env) (g : B -> row) l bs t on p,
    d_rel d (tr_name t) = Some (map g bs) ->
    (forall a b, holds d args on (f a ++ [(tr_alias t, Some (g b))]) = Some (p a b)) ->
    join_table d args (map f l) true t on =
    Some (map (fun x => f (fst x) ++ [(tr_alias t, option_map g (snd x))]) (pairs_left p l bs)).
Proof.
  intros A B d args f g l bs t on p HD HP. unfold join_table. rewrite HD.
  rewrite (map_opt_map _ f (fun a => map (fun x : A * option B => f (fst x) ++ [(tr_alias t, option_map g (snd x))])
     (match filter (p a) bs with [] => [(a, None)] | m => map (fun b => (a, Some b)) m end))).
  - cbn [option_map]. now rewrite concat_flat_map.
  - intros a _. unfold join_one. rewrite map_map. rewrite (filter_opt_map _ (fun b => f a ++ [(tr_alias t, Some (g b))]) (p a)) by (intros; apply HP).
    destruct (filter (p a) bs) as [|b m]; [reflexivity|]. rewrite map_map. reflexivity.
Qed.
Lemma sorted_by_map : forall {A B} (f : A -> B) less l, sorted_by less (map f l) -> sorted_by (fun a b => less (f a) (f b)) l.
Proof.
  intros A B f less. induction l as [|x l IH]; intros H; constructor; inversion H as [|? ? H1 H2]; subst; auto.
  now apply (proj1 (Forall_map f _ l)) in H1.
Qed.
Lemma typed_answer : forall {A} d args q rows (F : A -> env) L P (G : A -> row),
    answers d args q rows -> from_envs d args q = Some (map F L) ->
    (forall x, In x L -> holds d args (q_where q) (F x) = Some (P x)) ->
    (forall x, In x L -> project d args q (F x) = Some (G x)) ->
    exists L', Permutation L' (filter P L) /\ sorted_by (fun a b => before d args (q_order q) (F a) (F b)) L' /\ rows = map G L'.
Proof.
  intros A d args q rows F L P G (envs & kept & ordered & H1 & H2 & H3 & H4 & H5) HF HP HG.
  rewrite HF in H1. injection H1 as <-. rewrite (filter_opt_map _ F P L HP) in H2. injection H2 as <-.
  apply Permutation_sym, Permutation_map_inv in H3 || (apply Permutation_map_inv in H3). destruct H3 as (L' & -> & HL).
  exists L'. split; [now apply Permutation_sym || exact HL|split].
  - now apply sorted_by_map in H4.
  - rewrite (map_opt_map _ F G) in H5; [now injection H5|]. intros x HX. apply HG.
    assert (HI : In x (filter P L)) by (eapply Permutation_in; [|exact HX]; auto using Permutation_sym). now apply filter_In in HI.
Qed.
Lemma in_pairs : forall {A B} (p : A -> B -> bool) l bs a b, In (a, b) (pairs p l bs) <-> In a l /\ In b bs /\ p a b = true.
Proof.
  intros. unfold pairs. rewrite in_flat_map. split.
  - intros (x & H1 & H2). apply in_map_iff in H2. destruct H2 as (y & E & H2). injection E as -> ->. apply filter_In in H2. tauto.
  - intros (H1 & H2 & H3). exists a. split; auto. apply in_map_iff. exists b. split; auto. now apply filter_In.
Qed.

(** * Texts in a list *)
Definition coll_eq (coll : gostring -> gostring -> comparison) (a b : gostring) : bool := match coll a b with Eq => true | _ => false end.
Lemma eval_in : forall d args e a x es ts, eval d args e a = Some (VText x) ->
    Forall2 (fun y t => eval d args e y = Some (VText t)) es ts ->
    eval d args e (EIn a es) = Some (VBool (existsb (coll_eq (d_coll d) x) ts)).
Proof.
  intros d args e a x es ts HA H. cbn [eval]. rewrite HA. induction H as [|y t es ts HY H IH]; cbn [fold_right existsb]; [reflexivity|].
  rewrite IH, HY. cbn [bind2 eq_values]. fold (coll_eq (d_coll d) x t). now destruct (coll_eq (d_coll d) x t), (existsb (coll_eq (d_coll d) x) ts).
Qed.
Lemma eval_args_from : forall d pre l e, Forall2 (fun y t => eval d (pre ++ l) e y = Some (VText t)) (args_from (N.of_nat (S (length pre))) l) l.
Proof.
  intros d pre l e. revert pre. induction l as [|t l IH]; intros pre; [constructor|].
  change (args_from (N.of_nat (S (length pre))) (t :: l)) with (EArg (N.of_nat (S (length pre))) :: args_from (N.of_nat (S (length pre)) + 1) l).
  constructor.
  - assert (HE : eval d (pre ++ t :: l) e (EArg (N.of_nat (S (length pre)))) = option_map VText (nth_error (pre ++ t :: l) (N.to_nat (N.of_nat (S (length pre))) - 1))).
    { destruct (N.of_nat (S (length pre))) eqn:E; [lia|]. reflexivity. }
    rewrite HE, Nat2N.id. cbn [Nat.sub]. rewrite Nat.sub_0_r, nth_error_app2 by lia. now rewrite Nat.sub_diag.
  - specialize (IH (pre ++ [t])). rewrite app_length in IH. cbn [length] in IH.
    replace (N.of_nat (S (length pre + 1))) with (N.of_nat (S (length pre)) + 1)%N in IH by lia. now rewrite <- app_assoc in IH.
Qed.
Lemma eval_texts : forall d args l e, Forall2 (fun y t => eval d args e y = Some (VText t)) (map EText l) l.
Proof. intros. induction l; constructor; auto. Qed.

Lemma sorted_by_filter : forall {A} (less : A -> A -> bool) p l, sorted_by less l -> sorted_by less (filter p l).
Proof.
  intros A less p l H. induction H as [|x l HF HS IH]; cbn [filter]; [constructor|]. destruct (p x); auto.
  constructor; auto. rewrite Forall_forall in *. intros y HY. apply HF. now apply filter_In in HY.
Qed.
Lemma sorted_strongly : forall {A} (less : A -> A -> bool) (R : A -> A -> Prop) l, sorted_by less l -> NoDup l ->
    (forall a b, In a l -> In b l -> a <> b -> less b a = false -> R a b) -> StronglySorted R l.
Proof.
  intros A less R l H. induction H as [|x l HF HS IH]; intros HN HR; constructor; inversion HN as [|? ? HN1 HN2]; subst.
  - apply IH; auto. intros a b HA HB. apply HR; now right.
  - rewrite Forall_forall in *. intros y HY. apply HR; [now left|now right|congruence|auto].
Qed.
Lemma scan_all_map : forall {A B} (f : row -> outcome B) (G : A -> row) (h : A -> B) l, (forall x, In x l -> f (G x) = Ok (h x)) ->
    scan_all f (map G l) = Ok (map h l).
Proof.
  intros A B f G h. induction l as [|x l IH]; intros H; cbn [map scan_all]; auto.
  rewrite H by now left. cbn [obind]. rewrite IH by (intros; apply H; now right). reflexivity.
Qed.
Lemma filter_map : forall {A B} (f : A -> B) p l, filter p (map f l) = map f (filter (fun x => p (f x)) l).
Proof. intros. induction l as [|x l IH]; cbn [map filter]; auto. rewrite IH. destruct (p (f x)); reflexivity. Qed.

Lemma NoDup_map_eq : forall {A B} (f : A -> B) l a b, NoDup (map f l) -> In a l -> In b l -> f a = f b -> a = b.
Proof.
  intros A B f. induction l as [|x l IH]; intros a b HN HA HB E; [destruct HA|]. inversion HN as [|? ? H1 H2]; subst.
  destruct HA as [->|HA], HB as [->|HB]; auto.
  - elim H1. rewrite E. now apply in_map.
  - elim H1. rewrite <- E. now apply in_map.
Qed.

(** * MySQL: columns *)
Inductive contiguous : list flat_row -> Prop :=
| ct_nil : contiguous []
| ct_cons : forall r rows, contiguous rows ->
    (In (row_key r) (map row_key rows) -> exists r0 rest, rows = r0 :: rest /\ row_key r0 = row_key r) -> contiguous (r :: rows).
Lemma groups_keys : forall rows k, In k (map fst (groups rows)) <-> exists r, In r rows /\ row_key r = k.
Proof.
  intros rows k. split; [apply groups_keys_In|]. intros (r & Hr & <-). rewrite <- (groups_flat rows) in Hr. apply in_concat in Hr.
  destruct Hr as (l & Hl & Hr). apply in_map_iff in Hl. destruct Hl as (g & <- & Hg). unfold index_rows in Hr. apply in_map_iff in Hr.
  destruct Hr as (c & <- & _). apply in_map_iff. exists g. split; [|exact Hg]. destruct g as [[t i] cs]. reflexivity.
Qed.
Lemma contiguous_NoDup : forall rows, contiguous rows -> NoDup (map fst (groups rows)).
Proof.
  intros rows H. induction H as [|r rows HC IH HR]; [constructor|]. cbn [groups].
  pose proof (groups_head rows) as HH. pose proof (groups_keys rows (row_key r)) as HKey.
  destruct (groups rows) as [|[k cs] gs] eqn:E; [constructor; [intros []|constructor]|].
  destruct HH as (r0 & rest & -> & Hk). cbn [fst] in Hk. subst k.
  destruct (seqb (fr_table r) (fst (row_key r0)) && seqb (fr_index r) (snd (row_key r0))) eqn:EK.
  - apply key_eqb in EK. cbn [map fst] in *. rewrite EK. exact IH.
  - cbn [map fst] in *. constructor; [|exact IH]. intros HI.
    destruct (HR) as (r1 & rest1 & E1 & E2).
    + change (In (row_key r) (map row_key (r0 :: rest))). apply in_map_iff. apply HKey in HI. destruct HI as (x & X1 & X2). eauto.
    + injection E1 as <- <-. symmetry in E2. apply key_eqb in E2. congruence.
Qed.
Lemma filter_none : forall {A} (p : A -> bool) l, (forall x, In x l -> p x = false) -> filter p l = [].
Proof. intros A p. induction l as [|x l IH]; intros H; cbn [filter]; auto. rewrite H by now left. apply IH. intros; apply H; now right. Qed.
Lemma filter_all : forall {A} (p : A -> bool) l, (forall x, In x l -> p x = true) -> filter p l = l.
Proof. intros A p. induction l as [|x l IH]; intros H; cbn [filter]; auto. rewrite H by now left. f_equal. apply IH. intros; apply H; now right. Qed.
Lemma filter_groups : forall gs (g : (gostring * gostring) * list gostring), NoDup (map fst gs) -> In g gs ->
    filter (fun r => seqb (fr_table r) (fst (fst g)) && seqb (fr_index r) (snd (fst g))) (concat (map index_rows gs)) = index_rows g.
Proof.
  induction gs as [|g0 gs IH]; intros g HN HG; [destruct HG|]. cbn [map] in HN. inversion HN as [|? ? H1 H2]; subst.
  cbn [map concat]. rewrite filter_app. destruct HG as [->|HG].
  - rewrite filter_all, filter_none; [apply app_nil_r| |].
    + intros r Hr. apply in_concat in Hr. destruct Hr as (l & Hl & Hr). apply in_map_iff in Hl. destruct Hl as (g' & <- & Hg').
      unfold index_rows in Hr. apply in_map_iff in Hr. destruct Hr as (c & <- & _). cbn [fr_table fr_index].
      destruct (_ && _) eqn:E; [|reflexivity]. apply andb_true_iff in E. destruct E as [E1 E2]. apply seqb_eq in E1, E2.
      elim H1. apply in_map_iff. exists g'. split; [|exact Hg']. destruct (fst g'), (fst g). cbn in *. congruence.
    + intros r Hr. unfold index_rows in Hr. apply in_map_iff in Hr. destruct Hr as (c & <- & _). cbn [fr_table fr_index]. now rewrite !seqb_refl.
  - rewrite IH by auto. rewrite filter_none; [reflexivity|]. intros r Hr. unfold index_rows in Hr. apply in_map_iff in Hr. destruct Hr as (c & <- & _).
    cbn [fr_table fr_index]. destruct (_ && _) eqn:E; [|reflexivity]. apply andb_true_iff in E. destruct E as [E1 E2]. apply seqb_eq in E1, E2.
    elim H1. apply in_map_iff. exists g. split; [|exact HG]. destruct (fst g0), (fst g). cbn in *. congruence.
Qed.
Lemma group_columns : forall rows, contiguous rows -> forall g, In g (groups rows) ->
    snd g = map fr_column (filter (fun r => seqb (fr_table r) (fst (fst g)) && seqb (fr_index r) (snd (fst g))) rows).
Proof.
  intros rows HC g HG. rewrite <- (groups_flat rows) at 1. rewrite (filter_groups _ _ (contiguous_NoDup _ HC) HG).
  unfold index_rows. rewrite map_map. cbn. now rewrite map_id.
Qed.
Section My.
Variable coll : gostring -> gostring -> comparison.
Variable cat : my_catalog.
Let d := my_database coll cat.

Lemma my_where : forall schema tables (G : list (gostring * value)) sc t, col_of (lit "table_schema") (Some G) = Some (VText sc) -> col_of (lit "table_name") (Some G) = Some (VText t) ->
    forall alias, holds d (schema :: tables) (EAnd (EEq (EBare (lit "table_schema")) (EArg 1)) (EIn (EBare (lit "table_name")) (args_from 2 tables))) [(alias, Some G)]
    = Some (coll_eq coll sc schema && existsb (coll_eq coll t) tables).
Proof.
  intros schema tables G sc t H1 H2 alias. unfold holds.
  assert (E1 : eval d (schema :: tables) [(alias, Some G)] (EEq (EBare (lit "table_schema")) (EArg 1)) = Some (VBool (coll_eq coll sc schema))).
  { cbn [eval lookup_bare]. rewrite H1. reflexivity. }
  assert (E2 : eval d (schema :: tables) [(alias, Some G)] (EIn (EBare (lit "table_name")) (args_from 2 tables)) = Some (VBool (existsb (coll_eq coll t) tables))).
  { apply (eval_in d); [cbn [eval lookup_bare]; now rewrite H2|]. exact (eval_args_from d [schema] tables _). }
  change (eval d (schema :: tables) [(alias, Some G)] (EAnd ?a ?b)) with
    (bind2 and_values (eval d (schema :: tables) [(alias, Some G)] a) (eval d (schema :: tables) [(alias, Some G)] b)).
  rewrite E1, E2. cbn [bind2]. now destruct (coll_eq coll sc schema), (existsb (coll_eq coll t) tables).
Qed.

Lemma my_columns_answer : forall server schema tables rows, answers_from d server -> tables <> [] ->
    mysql_columns server schema tables = Ok rows ->
    exists L, Permutation L (filter (fun c => coll_eq coll (mc_schema c) schema && existsb (coll_eq coll (mc_table c)) tables) (my_columns cat)) /\
      sorted_by (fun a b => match coll (mc_table a) (mc_table b) with Lt => true | Gt => false | Eq => (mc_pos a <? mc_pos b)%Z end) L /\
      rows = map (fun c => (mc_table c, mc_name c, seqb (mc_key c) (lit "PRI"))) L.
Proof.
  intros server schema tables rows HS HN H. unfold mysql_columns, mysql_request in H.
  rewrite (sqlx_in_two _ _ _ (proj1 templates_two_marks) HN) in H. cbn [obind] in H. unfold selected in H.
  match type of H with context [server ?rq] => destruct (server rq) as [rs|m|] eqn:ES end; cbn [obind] in H; try discriminate.
  pose proof (HS _ _ _ _ ES (question_text mysql_column_template my_column_query tables (or_introl eq_refl) parse_my_column HN)) as HA.
  destruct (typed_answer d (schema :: tables) _ rs (fun c => [(lit "columns", Some (column_row c))]) (my_columns cat)
    (fun c => coll_eq coll (mc_schema c) schema && existsb (coll_eq coll (mc_table c)) tables)
    (fun c => [(lit "COLUMN_NAME", VText (mc_name c)); (lit "COLUMN_KEY", VText (mc_key c)); (lit "TABLE_NAME", VText (mc_table c))]) HA) as (L & P1 & P2 & ->).
  - unfold from_envs. change (d_rel d (tr_name (q_from (my_column_query (EArg 1) (args_from 2 tables))))) with (Some (map column_row (my_columns cat))).
    cbn [q_joins my_column_query join_tables]. now rewrite map_map.
  - intros c _. apply my_where; reflexivity.
  - intros c _. reflexivity.
  - exists L. split; [exact P1|split].
    + assert (HX : forall a b : my_column, before d (schema :: tables) [EBare (lit "table_name"); EBare (lit "ordinal_position")]
         [(lit "columns", Some (column_row a))] [(lit "columns", Some (column_row b))] =
         match coll (mc_table a) (mc_table b) with Lt => true | Gt => false | Eq => (mc_pos a <? mc_pos b)%Z end).
      { intros a b. cbn [before]. change (compare_values d (eval d (schema :: tables) [(lit "columns", Some (column_row a))] (EBare (lit "table_name")))
          (eval d (schema :: tables) [(lit "columns", Some (column_row b))] (EBare (lit "table_name")))) with (coll (mc_table a) (mc_table b)).
        change (compare_values d (eval d (schema :: tables) [(lit "columns", Some (column_row a))] (EBare (lit "ordinal_position")))
          (eval d (schema :: tables) [(lit "columns", Some (column_row b))] (EBare (lit "ordinal_position")))) with (Z.compare (mc_pos a) (mc_pos b)).
        unfold Z.ltb. destruct (coll (mc_table a) (mc_table b)); reflexivity. }
      clear - P2 HX. induction P2 as [|x l HF HSo IH]; constructor; auto.
    + rewrite (scan_all_map _ _ (fun c => (mc_table c, mc_name c, seqb (mc_key c) (lit "PRI")))) in H by (intros; reflexivity). now injection H as <-.
Qed.
Lemma existsb_coll : forall x l, existsb (coll_eq coll x) l = true <-> exists t, In t l /\ coll x t = Eq.
Proof.
  intros. rewrite existsb_exists. unfold coll_eq. split; intros (t & H1 & H2); exists t; split; auto; [now destruct (coll x t)|now rewrite H2].
Qed.
Lemma my_schema_read : forall server schema tables rows t, my_sound cat -> my_names_apart coll cat schema tables -> answers_from d server ->
    mysql_columns server schema tables = Ok rows -> In t tables ->
    exists cols, my_schema_of cat schema t (schema_from t rows) cols /\ rows_of t rows = map (fun c => (mc_table c, mc_name c, seqb (mc_key c) (lit "PRI"))) cols.
Proof.
  intros server schema tables rows t HSo HNa HS H HT. assert (HN : tables <> []) by (intros ->; destruct HT).
  destruct (my_columns_answer server schema tables rows HS HN H) as (L & P1 & P2 & ->).
  exists (filter (fun c => seqb (mc_table c) t) L).
  assert (HI : forall c, In c (filter (fun c => seqb (mc_table c) t) L) <-> my_column_of cat schema t c).
  { intros c. rewrite filter_In, seqb_eq. unfold my_column_of. split.
    - intros [HL E]. apply (Permutation_in _ P1) in HL. apply filter_In in HL. destruct HL as [HC HB]. apply andb_true_iff in HB. destruct HB as [HB _].
      split; [exact HC|split; [|exact E]]. apply (na_schema _ _ _ _ HNa); auto. unfold coll_eq in HB. now destruct (coll (mc_schema c) schema).
    - intros (HC & E1 & E2). split; [|exact E2]. apply (Permutation_in _ (Permutation_sym P1)). apply filter_In. split; [exact HC|].
      apply andb_true_iff. split; [unfold coll_eq; now rewrite E1, (na_refl _ _ _ _ HNa)|].
      apply existsb_coll. exists t. split; [exact HT|]. now rewrite E2, (na_refl _ _ _ _ HNa). }
  assert (HND : NoDup (filter (fun c => seqb (mc_table c) t) L)).
  { apply NoDup_filter. apply (Permutation_NoDup (Permutation_sym P1)), NoDup_filter.
    exact (NoDup_map_inv _ _ (ms_col_key _ HSo)). }
  assert (HR : rows_of t (map (fun c => (mc_table c, mc_name c, seqb (mc_key c) (lit "PRI"))) L) =
     map (fun c => (mc_table c, mc_name c, seqb (mc_key c) (lit "PRI"))) (filter (fun c => seqb (mc_table c) t) L)).
  { unfold rows_of. now rewrite filter_map. }
  split; [|exact HR]. split; [exact HI|split; [exact HND|split; [|split]]].
  - refine (sorted_strongly _ _ _ (sorted_by_filter _ _ _ P2) HND _). intros a b HA HB Hne HL.
    apply HI in HA, HB. destruct HA as (HA & A1 & A2), HB as (HB & B1 & B2). rewrite A2, B2, (na_refl _ _ _ _ HNa) in HL.
    apply Z.ltb_ge in HL. assert (HE : mc_pos a <> mc_pos b); [|lia]. intros HE. apply Hne.
    refine (NoDup_map_eq _ _ _ _ (ms_col_key _ HSo) HA HB _). cbn. congruence.
  - unfold schema_from. rewrite HR. cbn [ts_cols]. now rewrite map_map.
  - unfold schema_from. rewrite HR. cbn [ts_pks]. now rewrite filter_map, map_map.
Qed.

(** ** MySQL: indexes *)
Lemma my_indexes_answer : forall server schema tables rows, answers_from d server -> tables <> [] ->
    mysql_indexes server schema tables = Ok rows ->
    exists L, Permutation L (filter (fun s => coll_eq coll (ms_schema s) schema && existsb (coll_eq coll (ms_table s)) tables) (my_stats cat)) /\
      sorted_by (fun a b => match coll (ms_table a) (ms_table b) with Lt => true | Gt => false | Eq =>
         match coll (ms_index a) (ms_index b) with Lt => true | Gt => false | Eq => (ms_seq a <? ms_seq b)%Z end end) L /\
      (forall s, In s L -> ms_col s <> None) /\
      rows = map (fun s => mk_row (ms_table s) (ms_index s) (match ms_col s with Some c => c | None => [] end)) L.
Proof.
  intros server schema tables rows HS HN H. unfold mysql_indexes, mysql_request in H.
  rewrite (sqlx_in_two _ _ _ (proj1 (proj2 templates_two_marks)) HN) in H. cbn [obind] in H. unfold selected in H.
  match type of H with context [server ?rq] => destruct (server rq) as [rs|m|] eqn:ES end; cbn [obind] in H; try discriminate.
  pose proof (HS _ _ _ _ ES (question_text mysql_index_template my_index_query tables (or_intror (or_introl eq_refl)) parse_my_index HN)) as HA.
  destruct (typed_answer d (schema :: tables) _ rs (fun s => [(lit "statistics", Some (stat_row s))]) (my_stats cat)
    (fun s => coll_eq coll (ms_schema s) schema && existsb (coll_eq coll (ms_table s)) tables)
    (fun s => [(lit "TABLE_NAME", VText (ms_table s)); (lit "INDEX_NAME", VText (ms_index s)); (lit "COLUMN_NAME", text_or_null (ms_col s))]) HA) as (L & P1 & P2 & ->).
  - unfold from_envs. change (d_rel d (tr_name (q_from (my_index_query (EArg 1) (args_from 2 tables))))) with (Some (map stat_row (my_stats cat))).
    cbn [q_joins my_index_query join_tables]. now rewrite map_map.
  - intros s _. apply my_where; reflexivity.
  - intros s _. reflexivity.
  - exists L. split; [exact P1|split].
    + assert (HX : forall a b : my_stat, before d (schema :: tables) [EBare (lit "table_name"); EBare (lit "index_name"); EBare (lit "seq_in_index")]
         [(lit "statistics", Some (stat_row a))] [(lit "statistics", Some (stat_row b))] =
         match coll (ms_table a) (ms_table b) with Lt => true | Gt => false | Eq =>
         match coll (ms_index a) (ms_index b) with Lt => true | Gt => false | Eq => (ms_seq a <? ms_seq b)%Z end end).
      { intros a b. cbn [before]. change (compare_values d (eval d (schema :: tables) [(lit "statistics", Some (stat_row a))] (EBare (lit "table_name")))
          (eval d (schema :: tables) [(lit "statistics", Some (stat_row b))] (EBare (lit "table_name")))) with (coll (ms_table a) (ms_table b)).
        change (compare_values d (eval d (schema :: tables) [(lit "statistics", Some (stat_row a))] (EBare (lit "index_name")))
          (eval d (schema :: tables) [(lit "statistics", Some (stat_row b))] (EBare (lit "index_name")))) with (coll (ms_index a) (ms_index b)).
        change (compare_values d (eval d (schema :: tables) [(lit "statistics", Some (stat_row a))] (EBare (lit "seq_in_index")))
          (eval d (schema :: tables) [(lit "statistics", Some (stat_row b))] (EBare (lit "seq_in_index")))) with (Z.compare (ms_seq a) (ms_seq b)).
        unfold Z.ltb. destruct (coll (ms_table a) (ms_table b)); try reflexivity; destruct (coll (ms_index a) (ms_index b)); reflexivity. }
      clear - P2 HX. induction P2 as [|x l HF HSo IH]; constructor; auto.
    + clear - H. destruct (scan_all mysql_scan_index _) as [r|m|] eqn:E; try discriminate. injection H as <-. revert r E.
      induction L as [|s L IH]; intros r E; cbn [map scan_all] in E.
      * injection E as <-. split; [intros s []|reflexivity].
      * unfold mysql_scan_index in E at 1. cbn -[scan_all] in E.
        destruct (ms_col s) as [c|] eqn:EC; cbn -[scan_all] in E; [|discriminate].
        destruct (scan_all mysql_scan_index _) as [r'|m|] eqn:E'; cbn [obind] in E; try discriminate. injection E as <-.
        destruct (IH _ eq_refl) as [I1 ->]. split.
        -- intros x [<-|HX]; [congruence|auto].
        -- cbn [map]. now rewrite EC.
Qed.

Lemma my_parts_contiguous : forall schema tables L, my_names_apart coll cat schema tables ->
    (forall s, In s L -> In s (my_stats cat) /\ ms_schema s = schema /\ In (ms_table s) tables) ->
    sorted_by (fun a b => match coll (ms_table a) (ms_table b) with Lt => true | Gt => false | Eq =>
         match coll (ms_index a) (ms_index b) with Lt => true | Gt => false | Eq => (ms_seq a <? ms_seq b)%Z end end) L ->
    forall h, (forall s, row_key (h s) = (ms_table s, ms_index s)) -> contiguous (map h L).
Proof.
  intros schema tables L HNa HL H h Hh. induction H as [|x l HF HS IH]; cbn [map]; constructor.
  - apply IH. intros s Hs. apply HL. now right.
  - intros HI. destruct l as [|y l]; [destruct HI|]. cbn [map] in *. eexists _, _. split; [reflexivity|].
    destruct HI as [HI|HI]; [exact HI|]. rewrite map_map in HI. apply in_map_iff in HI. destruct HI as (z & Ez & Hz).
    rewrite !Hh in *. injection Ez as E1 E2.
    inversion HS as [|? ? HFy HSy]; subst. inversion HF as [|? ? HFx _]; subst.
    rewrite Forall_forall in HFy. specialize (HFy _ Hz).
    destruct (HL x (or_introl eq_refl)) as (X1 & X2 & X3), (HL y (or_intror (or_introl eq_refl))) as (Y1 & Y2 & Y3).
    rewrite E1, E2 in HFy. rewrite (na_opp _ _ _ _ HNa (ms_table x) (ms_table y)) in HFx.
    destruct (coll (ms_table x) (ms_table y)) eqn:C1; cbn [CompOpp] in HFx; try discriminate.
    pose proof (na_tables _ _ _ _ HNa _ _ X3 Y3 C1) as ET.
    rewrite (na_opp _ _ _ _ HNa (ms_index x) (ms_index y)) in HFx.
    destruct (coll (ms_index x) (ms_index y)) eqn:C2; cbn [CompOpp] in HFx; try discriminate.
    f_equal; [congruence|]. symmetry. apply (na_index _ _ _ _ HNa); auto; congruence.
Qed.
Lemma my_indexes_read : forall server schema tables its, my_sound cat -> my_names_apart coll cat schema tables -> answers_from d server ->
    mysql_get_indexes (mysql_indexes server schema) tables = Ok its ->
    exists gs, my_indexes_of cat schema tables its gs.
Proof.
  intros server schema tables its HSo HNa HS H. assert (HN : tables <> []) by (intros ->; discriminate).
  unfold mysql_get_indexes in H. destruct tables as [|t0 tables']; [congruence|]. set (tables := t0 :: tables') in *.
  destruct (mysql_indexes server schema tables) as [rows|m|] eqn:E; cbn [obind] in H; try discriminate.
  destruct (my_indexes_answer server schema tables rows HS HN E) as (L & P1 & P2 & PC & ->).
  set (h := fun s => mk_row (ms_table s) (ms_index s) (match ms_col s with Some c => c | None => [] end)) in *.
  assert (HL : forall s, In s L <-> In s (my_stats cat) /\ ms_schema s = schema /\ In (ms_table s) tables).
  { intros s. split.
    - intros Hs. apply (Permutation_in _ P1) in Hs. apply filter_In in Hs. destruct Hs as [Hs HB]. apply andb_true_iff in HB. destruct HB as [B1 B2].
      split; [exact Hs|split].
      + apply (na_stat_schema _ _ _ _ HNa); auto. unfold coll_eq in B1. now destruct (coll (ms_schema s) schema).
      + apply existsb_coll in B2. destruct B2 as (t & T1 & T2). now rewrite (na_stat_table _ _ _ _ HNa _ _ Hs T1 T2).
    - intros (H1 & H2 & H3). apply (Permutation_in _ (Permutation_sym P1)). apply filter_In. split; [exact H1|].
      apply andb_true_iff. split; [unfold coll_eq; now rewrite H2, (na_refl _ _ _ _ HNa)|].
      apply existsb_coll. exists (ms_table s). split; auto. apply (na_refl _ _ _ _ HNa). }
  assert (HC : contiguous (map h L)).
  { eapply my_parts_contiguous; eauto. intros s Hs. now apply HL. }
  rewrite to_index_info_groups in H.
  2: { intros r Hr. destruct L as [|s L]; [discriminate|]. injection Hr as <-. unfold row_key. cbn. intros HE. injection HE as HE _.
       exact (ms_named _ HSo s (proj1 (proj1 (HL s) (or_introl eq_refl))) HE). }
  injection H as <-.
  assert (HG : forall g, In g (groups (map h L)) -> snd g = map (fun s => match ms_col s with Some c => c | None => [] end)
     (filter (fun s => seqb (ms_table s) (fst (fst g)) && seqb (ms_index s) (snd (fst g))) L)).
  { intros g Hg. rewrite (group_columns _ HC g Hg), filter_map, map_map. reflexivity. }
  exists (map (fun g => (fst g, filter (fun s => seqb (ms_table s) (fst (fst g)) && seqb (ms_index s) (snd (fst g))) L)) (groups (map h L))).
  assert (HK : map fst (map (fun g => (fst g, filter (fun s => seqb (ms_table s) (fst (fst g)) && seqb (ms_index s) (snd (fst g))) L)) (groups (map h L)))
     = map fst (groups (map h L))) by (rewrite map_map; reflexivity).
  split; [|split].
  - intros t i. rewrite HK, groups_keys. split.
    + intros (r & Hr & Ek). apply in_map_iff in Hr. destruct Hr as (s & <- & Hs). unfold row_key in Ek. cbn in Ek. injection Ek as <- <-.
      apply HL in Hs. split; [tauto|]. exists s. unfold my_part_of. tauto.
    + intros (Ht & s & S1 & S2 & S3 & S4). exists (h s). split; [|unfold row_key; cbn; congruence]. apply in_map. apply HL. subst t. tauto.
  - rewrite HK. now apply contiguous_NoDup.
  - assert (HT : forall g, In g (groups (map h L)) -> In (fst (fst g)) tables).
    { intros g Hg. destruct (proj1 (groups_keys (map h L) (fst g)) (in_map fst _ _ Hg)) as (r & Hr & Ek).
      apply in_map_iff in Hr. destruct Hr as (s & <- & Hs). rewrite <- Ek. apply HL in Hs. unfold row_key. cbn [h fst fr_table]. exact (proj2 (proj2 Hs)). }
    clear HK. revert HG HT. generalize (groups (map h L)). intros gs HG HT. induction gs as [|g gs IH]; cbn [map]; constructor.
    2: { apply IH; intros g' Hg'; [apply HG|apply HT]; now right. }
    assert (HF : forall s, In s (filter (fun s => seqb (ms_table s) (fst (fst g)) && seqb (ms_index s) (snd (fst g))) L)
       <-> my_part_of cat schema (fst (fst g)) (snd (fst g)) s).
    { intros s. rewrite filter_In, andb_true_iff, !seqb_eq, HL. unfold my_part_of. split; [tauto|]. intros (S1 & S2 & S3 & S4).
      split; [|tauto]. split; [tauto|split; [tauto|]]. rewrite S3. apply HT. now left. }
    cbn [fst snd target_of it_table it_cols]. split; [reflexivity|split; [exact HF|split]].
    + assert (HND : NoDup (filter (fun s => seqb (ms_table s) (fst (fst g)) && seqb (ms_index s) (snd (fst g))) L)).
      { apply NoDup_filter. apply (Permutation_NoDup (Permutation_sym P1)), NoDup_filter. exact (NoDup_map_inv _ _ (ms_stat_key _ HSo)). }
      refine (sorted_strongly _ _ _ (sorted_by_filter _ _ _ P2) HND _). intros a b HA HB Hne HLt.
      apply HF in HA, HB. destruct HA as (HA & A1 & A2 & A3), HB as (HB & B1 & B2 & B3). rewrite A2, B2, A3, B3, !(na_refl _ _ _ _ HNa) in HLt.
      apply Z.ltb_ge in HLt. assert (HE : ms_seq a <> ms_seq b); [|lia]. intros HE. apply Hne.
      refine (NoDup_map_eq _ _ _ _ (ms_stat_key _ HSo) HA HB _). cbn. congruence.
    + rewrite (HG g (or_introl eq_refl)), map_map. apply map_ext_in. intros s Hs. apply filter_In in Hs. destruct Hs as [Hs _].
      specialize (PC _ Hs). destruct (ms_col s); [reflexivity|congruence].
Qed.
(** a functional key part *)
Lemma my_functional_index : forall server schema tables its s, my_names_apart coll cat schema tables -> answers_from d server ->
    In s (my_stats cat) -> ms_schema s = schema -> In (ms_table s) tables -> ms_col s = None ->
    mysql_get_indexes (mysql_indexes server schema) tables <> Ok its.
Proof.
  intros server schema tables its s HNa HS H1 H2 H3 H4 H. assert (HN : tables <> []) by (intros ->; discriminate).
  unfold mysql_get_indexes in H. destruct tables as [|t0 tables']; [congruence|]. set (tables := t0 :: tables') in *.
  destruct (mysql_indexes server schema tables) as [rows|m|] eqn:E; cbn [obind] in H; try discriminate.
  destruct (my_indexes_answer server schema tables rows HS HN E) as (L & P1 & P2 & PC & ->).
  apply (PC s); [|exact H4]. apply (Permutation_in _ (Permutation_sym P1)). apply filter_In. split; [exact H1|].
  apply andb_true_iff. split; [unfold coll_eq; now rewrite H2, (na_refl _ _ _ _ HNa)|].
  apply existsb_coll. exists (ms_table s). split; auto. apply (na_refl _ _ _ _ HNa).
Qed.
End My.
