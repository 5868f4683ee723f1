(** Evaluating the metadata queries over PostgreSQL's catalogs. *)
From Coq Require Import String List NArith ZArith Bool Lia Arith Sorting Permutation.
From Coq Require Import FinFun.
From Verif Require OtelForestProofs.
From Verif Require Import Base Dec IndexText IndexBuild TableFields Existing ExistingSpec ExistingProofs SqlServer Catalog CatalogSpec MetaSql MetaSqlProofs Hasura CatalogProofs.
Import ListNotations.

Lemma eval_and : forall d args e a b x y, eval d args e a = Some (VBool x) -> eval d args e b = Some (VBool y) ->
    eval d args e (EAnd a b) = Some (VBool (x && y)).
Proof. intros d args e a b x y H1 H2. cbn [eval]. rewrite H1, H2. cbn [bind2]. now destruct x, y. Qed.
Lemma eval_eq_text : forall d args e a b x y, eval d args e a = Some (VText x) -> eval d args e b = Some (VText y) ->
    eval d args e (EEq a b) = Some (VBool (coll_eq (d_coll d) x y)).
Proof. intros d args e a b x y H1 H2. cbn [eval]. rewrite H1, H2. reflexivity. Qed.
Lemma eval_eq_int : forall d args e a b x y, eval d args e a = Some (VInt x) -> eval d args e b = Some (VInt y) ->
    eval d args e (EEq a b) = Some (VBool (Z.eqb x y)).
Proof. intros d args e a b x y H1 H2. cbn [eval]. rewrite H1, H2. reflexivity. Qed.
Lemma holds_bool : forall d args e x b, eval d args e x = Some (VBool b) -> holds d args x e = Some b.
Proof. intros d args e x b H. unfold holds. now rewrite H. Qed.

Lemma existsb_zeqb : forall z l, existsb (Z.eqb z) l = true <-> In z l.
Proof. intros. rewrite existsb_exists. split; [intros (x & H1 & H2); apply Z.eqb_eq in H2; now subst|]. intros H. exists z. split; [exact H|apply Z.eqb_refl]. Qed.
Lemma in_pairs_left_some : forall {A B} (p : A -> B -> bool) l bs a b, In (a, Some b) (pairs_left p l bs) <-> In a l /\ In b bs /\ p a b = true.
Proof.
  intros. unfold pairs_left. rewrite in_flat_map. split.
  - intros (x & H1 & H2). destruct (filter (p x) bs) as [|y m] eqn:E; [destruct H2 as [H2|[]]; discriminate|].
    rewrite <- E in H2. apply in_map_iff in H2. destruct H2 as (z & Ez & Hz). injection Ez as -> ->. apply filter_In in Hz. tauto.
  - intros (H1 & H2 & H3). exists a. split; auto.
    assert (HF : In b (filter (p a) bs)) by now apply filter_In. destruct (filter (p a) bs) as [|y m]; [destruct HF|].
    apply in_map_iff. eauto.
Qed.
Lemma in_pairs_left_fst : forall {A B} (p : A -> B -> bool) l bs a o, In (a, o) (pairs_left p l bs) -> In a l.
Proof.
  intros A B p l bs a o H. unfold pairs_left in H. apply in_flat_map in H. destruct H as (x & H1 & H2).
  destruct (filter (p x) bs) as [|y m]; [destruct H2 as [H2|[]]; congruence|]. apply in_map_iff in H2. destruct H2 as (z & Ez & _). congruence.
Qed.
Lemma pairs_left_full : forall {A B} (p : A -> B -> bool) l bs a, In a l -> exists o, In (a, o) (pairs_left p l bs).
Proof.
  intros A B p l bs a H. destruct (filter (p a) bs) as [|y m] eqn:E.
  - exists None. unfold pairs_left. apply in_flat_map. exists a. split; auto. rewrite E. now left.
  - exists (Some y). unfold pairs_left. apply in_flat_map. exists a. split; auto. rewrite E. now left.
Qed.
Lemma count_pairs_left : forall {A B} (p : A -> B -> bool) l bs P a0, NoDup l -> In a0 l ->
    (forall a o, In a l -> P (a, o) = true <-> a = a0) ->
    length (filter P (pairs_left p l bs)) = Nat.max 1 (length (filter (p a0) bs)).
Proof.
  intros A B p l bs P a0 HN HI HP. induction l as [|a l IH]; [destruct HI|]. inversion HN as [|? ? N1 N2]; subst.
  unfold pairs_left. cbn [flat_map]. fold (pairs_left p l bs). rewrite filter_app, app_length.
  assert (HF : forall x, In x (match filter (p a) bs with [] => [(a, None)] | m => map (fun b => (a, Some b)) m end) -> exists o, x = (a, o)).
  { intros x HX. destruct (filter (p a) bs); [destruct HX as [<-|[]]; eauto|]. apply in_map_iff in HX. destruct HX as (b' & <- & _). eauto. }
  destruct HI as [->|HI].
  - rewrite (filter_all P (match filter (p _) bs with [] => _ | _ => _ end)).
    2: { intros x HX. destruct (HF x HX) as (o & ->). apply HP; [now left|reflexivity]. }
    rewrite (filter_none P (pairs_left p l bs)).
    2: { intros [a' o] HX. destruct (P (a', o)) eqn:E; [|reflexivity]. apply in_pairs_left_fst in HX.
         apply HP in E; [|now right]. congruence. }
    cbn [length]. rewrite Nat.add_0_r. destruct (filter (p a0) bs) as [|y m]; [reflexivity|]. rewrite map_length. cbn [length]. lia.
  - rewrite (filter_none P (match filter (p a) bs with [] => _ | _ => _ end)).
    2: { intros x HX. destruct (HF x HX) as (o & ->). destruct (P (a, o)) eqn:E; [|reflexivity]. apply HP in E; [|now left]. congruence. }
    cbn [length Nat.add]. apply IH; auto. intros a' o Ha. apply HP. now right.
Qed.
Lemma NoDup_pairs : forall {A B} (p : A -> B -> bool) l bs, NoDup l -> NoDup bs -> NoDup (pairs p l bs).
Proof.
  intros A B p l bs HN HB. induction HN as [|a l H1 H2 IH]; [constructor|]. unfold pairs. cbn [flat_map]. fold (pairs p l bs).
  apply OtelForestProofs.NoDup_app_intro; auto.
  - apply FinFun.Injective_map_NoDup; [intros x y E; congruence|]. now apply NoDup_filter.
  - intros [a' b] HI1 HI2. apply in_map_iff in HI1. destruct HI1 as (z & Ez & _). injection Ez as <- <-. apply in_pairs in HI2. tauto.
Qed.
Lemma count_map : forall {A} (f : A -> Z) l z, count_occ Z.eq_dec (map f l) z = length (filter (fun x => Z.eqb (f x) z) l).
Proof.
  intros. induction l as [|x l IH]; cbn [map count_occ filter]; auto. rewrite IH.
  destruct (Z.eq_dec (f x) z) as [E|E]; [apply Z.eqb_eq in E|apply Z.eqb_neq in E]; rewrite E; reflexivity.
Qed.
Lemma filter_filter : forall {A} (p q : A -> bool) l, filter p (filter q l) = filter (fun x => q x && p x) l.
Proof. intros. induction l as [|x l IH]; cbn [filter]; auto. destruct (q x); cbn [filter andb]; [destruct (p x)|]; now rewrite IH. Qed.
Lemma filter_Permutation : forall {A} (p : A -> bool) l l', Permutation l l' -> Permutation (filter p l) (filter p l').
Proof.
  intros A p l l' H. induction H as [|x l l' H IH|x y l|l l' l'' H1 IH1 H2 IH2]; cbn [filter]; auto.
  - destruct (p x); auto.
  - destruct (p x), (p y); auto using perm_swap.
  - eapply perm_trans; eauto.
Qed.

Section Pg.
Variable reserved : gostring -> bool.
Variable coll : gostring -> gostring -> comparison.
Variable cat : pg_catalog.
Let d := pg_database reserved coll cat.

(** how the schema and the tables are given: as arguments or in the text *)
Definition gives (args : list gostring) (e1 : expr) (es : list expr) (schema : gostring) (tables : list gostring) : Prop :=
  forall e, eval d args e e1 = Some (VText schema) /\ Forall2 (fun y t => eval d args e y = Some (VText t)) es tables.
Lemma gives_args : forall schema tables, gives (schema :: tables) (EArg 1) (args_from 2 tables) schema tables.
Proof. intros schema tables e. split; [reflexivity|]. exact (eval_args_from d [schema] tables e). Qed.
Lemma gives_texts : forall args schema tables, gives args (EText schema) (map EText tables) schema tables.
Proof. intros args schema tables e. split; [reflexivity|apply eval_texts]. Qed.

(** * Columns *)
Definition quad := (((pg_class * pg_attribute) * pg_namespace) * option pg_index)%type.
Definition q_c (x : quad) : pg_class := fst (fst (fst x)).
Definition q_a (x : quad) : pg_attribute := snd (fst (fst x)).
Definition q_n (x : quad) : pg_namespace := snd (fst x).
Definition q_x (x : quad) : option pg_index := snd x.
Definition column_env (x : quad) : env :=
  (([(lit "pg_class", Some (class_row (q_c x)))] ++ [(lit "pg_attribute", Some (attribute_row (q_a x)))]) ++
   [(lit "pg_namespace", Some (namespace_row (q_n x)))]) ++ [(lit "pg_index", option_map index_row (q_x x))].
Definition column_quads : list quad :=
  pairs_left (fun y x => Z.eqb (c_oid (fst (fst y))) (x_rel x) && existsb (Z.eqb (a_num (snd (fst y)))) (x_key x))
    (pairs (fun y n => Z.eqb (c_ns (fst y)) (n_oid n))
       (pairs (fun c a => Z.eqb (a_rel a) (c_oid c)) (classes cat) (attributes cat)) (namespaces cat)) (indexes cat).
Lemma column_envs : forall args e1 es, from_envs d args (pg_column_query e1 es) = Some (map column_env column_quads).
Proof.
  intros args e1 es. unfold from_envs.
  change (d_rel d (tr_name (q_from (pg_column_query e1 es)))) with (Some (map class_row (classes cat))). cbv iota.
  rewrite map_map. cbn [q_from pg_column_query q_joins join_tables].
  rewrite (join_inner d args (fun c => [(lit "pg_class", Some (class_row c))]) attribute_row (classes cat) (attributes cat) (t_ "pg_attribute" "pg_attribute")
    _ (fun c a => Z.eqb (a_rel a) (c_oid c))) by (intros; try reflexivity).
  rewrite (join_inner d args (fun y : pg_class * pg_attribute => [(lit "pg_class", Some (class_row (fst y)))] ++ [(lit "pg_attribute", Some (attribute_row (snd y)))])
    namespace_row _ (namespaces cat) (t_ "pg_namespace" "pg_namespace")
    _ (fun y n => Z.eqb (c_ns (fst y)) (n_oid n))) by (intros; try reflexivity).
  rewrite (join_left d args (fun y : (pg_class * pg_attribute) * pg_namespace =>
      ([(lit "pg_class", Some (class_row (fst (fst y))))] ++ [(lit "pg_attribute", Some (attribute_row (snd (fst y))))]) ++ [(lit "pg_namespace", Some (namespace_row (snd y)))])
    index_row _ (indexes cat) (t_ "pg_index" "pg_index")
    _ (fun y x => Z.eqb (c_oid (fst (fst y))) (x_rel x) && existsb (Z.eqb (a_num (snd (fst y)))) (x_key x))).
  - reflexivity.
  - reflexivity.
  - intros y x. apply holds_bool, eval_and; reflexivity.
Qed.
Definition wanted (schema : gostring) (tables : list gostring) (x : quad) : bool :=
  coll_eq coll (n_name (q_n x)) schema && (existsb (coll_eq coll (c_name (q_c x))) tables &&
    (coll_eq coll (c_kind (q_c x)) (lit "r") && Z.leb 0 (a_num (q_a x)))).
Definition is_pk (x : quad) : bool := match q_x x with Some i => x_primary i | None => false end.
Definition column_answer (x : quad) : row :=
  [(lit "table_name", VText (c_name (q_c x))); (lit "column_name", VText (a_name (q_a x))); (lit "is_pk", VBool (is_pk x))].
Lemma column_answers : forall args e1 es schema tables rows, gives args e1 es schema tables -> answers d args (pg_column_query e1 es) rows ->
    exists L, Permutation L (filter (wanted schema tables) column_quads) /\
      sorted_by (fun a b => match coll (c_name (q_c a)) (c_name (q_c b)) with Lt => true | Gt => false | Eq => (a_num (q_a a) <? a_num (q_a b))%Z end) L /\
      rows = map column_answer L.
Proof.
  intros args e1 es schema tables rows HG HA.
  destruct (typed_answer d args _ rows column_env column_quads (wanted schema tables) column_answer HA) as (L & P1 & P2 & ->).
  - apply column_envs.
  - intros x _. destruct (HG (column_env x)) as [G1 G2]. cbn [q_where pg_column_query]. apply holds_bool. unfold wanted.
    apply eval_and; [apply (eval_eq_text d); [reflexivity|exact G1]|].
    apply eval_and; [apply (eval_in d _ _ _ (c_name (q_c x))); [reflexivity|exact G2]|].
    apply eval_and; [apply (eval_eq_text d); reflexivity|reflexivity].
  - intros [[[c a] n] [x|]] _; reflexivity.
  - exists L. split; [exact P1|split; [|reflexivity]].
    clear - P2. induction P2 as [|x l HF HSo IH]; constructor; auto.
Qed.

Hypothesis coll_iff : forall a b, coll a b = Eq <-> a = b.
Hypothesis sound : pg_sound cat.
Lemma coll_eq_iff : forall a b, coll_eq coll a b = true <-> a = b.
Proof. intros a b. unfold coll_eq. rewrite <- coll_iff. destruct (coll a b); split; congruence. Qed.
Lemma coll_in : forall x l, existsb (coll_eq coll x) l = true <-> In x l.
Proof.
  intros. rewrite existsb_exists. split; [intros (t & H1 & H2); apply coll_eq_iff in H2; now subst|].
  intros H. exists x. split; [exact H|now apply coll_eq_iff].
Qed.
Lemma in_triples : forall c a n,
    In ((c, a), n) (pairs (fun y n => Z.eqb (c_ns (fst y)) (n_oid n)) (pairs (fun c a => Z.eqb (a_rel a) (c_oid c)) (classes cat) (attributes cat)) (namespaces cat))
    <-> In c (classes cat) /\ In a (attributes cat) /\ In n (namespaces cat) /\ a_rel a = c_oid c /\ c_ns c = n_oid n.
Proof. intros. rewrite !in_pairs, !Z.eqb_eq. cbn [fst]. tauto. Qed.
Lemma in_quads_some : forall c a n x, In (((c, a), n), Some x) column_quads <->
    In c (classes cat) /\ In a (attributes cat) /\ In n (namespaces cat) /\ a_rel a = c_oid c /\ c_ns c = n_oid n /\
    In x (indexes cat) /\ c_oid c = x_rel x /\ In (a_num a) (x_key x).
Proof.
  intros c a n x. unfold column_quads. rewrite in_pairs_left_some, in_triples, andb_true_iff, Z.eqb_eq, existsb_zeqb. cbn [fst snd]. tauto.
Qed.
Lemma in_quads : forall c a n o, In (((c, a), n), o) column_quads ->
    In c (classes cat) /\ In a (attributes cat) /\ In n (namespaces cat) /\ a_rel a = c_oid c /\ c_ns c = n_oid n.
Proof. intros c a n o H. apply in_triples. unfold column_quads in H. now apply in_pairs_left_fst in H. Qed.
Lemma quads_full : forall c a n, In c (classes cat) -> In a (attributes cat) -> In n (namespaces cat) -> a_rel a = c_oid c -> c_ns c = n_oid n ->
    exists o, In (((c, a), n), o) column_quads.
Proof. intros c a n H1 H2 H3 H4 H5. unfold column_quads. apply pairs_left_full. apply in_triples. tauto. Qed.
Lemma wanted_iff : forall schema tables x, wanted schema tables x = true <->
    n_name (q_n x) = schema /\ In (c_name (q_c x)) tables /\ c_kind (q_c x) = lit "r" /\ (0 <= a_num (q_a x))%Z.
Proof. intros. unfold wanted. rewrite !andb_true_iff, !coll_eq_iff, coll_in, Z.leb_le. tauto. Qed.

Lemma same_class : forall schema t o c n, pg_table cat schema t o -> In c (classes cat) -> In n (namespaces cat) -> c_ns c = n_oid n ->
    n_name n = schema -> c_name c = t -> c_oid c = o.
Proof.
  intros schema t o c n (c0 & H1 & H2 & H3 & _ & n0 & N1 & N2 & N3) HC HN HE HS HT.
  assert (En : n0 = n) by (apply (NoDup_map_eq _ _ _ _ (ps_ns_name _ sound) N1 HN); congruence). subst n0.
  assert (Ec : c0 = c) by (apply (NoDup_map_eq _ _ _ _ (ps_name _ sound) H1 HC); f_equal; congruence). congruence.
Qed.
Definition typed_column (x : quad) : gostring * gostring * bool := (c_name (q_c x), a_name (q_a x), is_pk x).

Section Read.
Variables (schema : gostring) (tables : list gostring) (L : list quad).
Hypothesis HP : Permutation L (filter (wanted schema tables) column_quads).
Hypothesis HS : sorted_by (fun a b => match coll (c_name (q_c a)) (c_name (q_c b)) with Lt => true | Gt => false | Eq => (a_num (q_a a) <? a_num (q_a b))%Z end) L.
Lemma in_L : forall x, In x L <-> In x column_quads /\ n_name (q_n x) = schema /\ In (c_name (q_c x)) tables /\ c_kind (q_c x) = lit "r" /\ (0 <= a_num (q_a x))%Z.
Proof.
  intros x. rewrite <- wanted_iff with (tables := tables), <- filter_In. split; apply Permutation_in; [exact HP|now apply Permutation_sym].
Qed.
Lemma L_table : forall x, In x L -> pg_table cat schema (c_name (q_c x)) (c_oid (q_c x)) /\ pg_column cat (c_oid (q_c x)) (a_name (q_a x)) (a_num (q_a x)).
Proof.
  intros [[[c a] n] o] H. apply in_L in H. destruct H as (H1 & H2 & H3 & H4 & H5). apply in_quads in H1. unfold q_c, q_a, q_n in *. cbn [fst snd] in *.
  destruct H1 as (I1 & I2 & I3 & I4 & I5). split.
  - exists c. repeat (split; [assumption || reflexivity|]). exists n. auto.
  - split; [exact H5|]. exists a. auto.
Qed.
Lemma read_none : forall t, In t tables -> (rows_of t (map typed_column L) = [] <-> ~ exists o name num, pg_table cat schema t o /\ pg_column cat o name num).
Proof.
  intros t HT. unfold rows_of. rewrite filter_map. split.
  - intros E (o & name & num & (c & C1 & C2 & C3 & C4 & n & N1 & N2 & N3) & Hge & a & A1 & A2 & A3 & A4).
    destruct (quads_full c a n) as (x & HX); auto; try congruence.
    assert (HI : In ((c, a), n, x) L). { apply in_L. unfold q_c, q_a, q_n. cbn [fst snd]. repeat (split; [congruence || assumption|]). congruence. }
    apply map_eq_nil in E. assert (HF : In ((c, a), n, x) (filter (fun x0 => seqb (fst (fst (typed_column x0))) t) L)).
    { apply filter_In. split; [exact HI|]. apply seqb_eq. exact C2. }
    rewrite E in HF. destruct HF.
  - intros HN. rewrite filter_none; [reflexivity|]. intros x HX. apply seqb_neq. intros E. apply HN.
    destruct (L_table x HX) as [T1 T2]. cbn [typed_column fst] in E. rewrite E in T1. eauto.
Qed.
Lemma read_schema : forall t o, In t tables -> pg_table cat schema t o ->
    exists nums, pg_schema_of cat o (schema_from t (map typed_column L)) nums.
Proof.
  intros t o HT HO. set (Lt := filter (fun x => seqb (c_name (q_c x)) t) L).
  assert (HR : rows_of t (map typed_column L) = map typed_column Lt) by (unfold rows_of; rewrite filter_map; reflexivity).
  assert (HLt : forall x, In x Lt -> In x L /\ c_name (q_c x) = t /\ c_oid (q_c x) = o).
  { intros x HX. apply filter_In in HX. destruct HX as [HX E]. apply seqb_eq in E. split; [exact HX|split; [exact E|]].
    destruct x as [[[c a] n] x]. apply in_L in HX. destruct HX as (H1 & H2 & _). apply in_quads in H1.
    eapply same_class; eauto; tauto. }
  exists (map (fun x => a_num (q_a x)) Lt). split.
  - unfold schema_from. rewrite HR. cbn [ts_cols]. rewrite map_map. cbn [typed_column fst snd].
    assert (HC : forall x, In x Lt -> pg_column cat o (a_name (q_a x)) (a_num (q_a x))).
    { intros x HX. destruct (HLt x HX) as (H1 & H2 & H3). rewrite <- H3. now apply L_table. }
    clearbody Lt. clear - HC. induction Lt as [|x l IH]; cbn [map]; constructor; [apply HC; now left|]. apply IH. intros; apply HC; now right.
  - assert (HSt : sorted_by (fun a b => match coll (c_name (q_c a)) (c_name (q_c b)) with Lt => true | Gt => false | Eq => (a_num (q_a a) <? a_num (q_a b))%Z end) Lt)
      by now apply sorted_by_filter.
    assert (HN : forall x, In x Lt -> c_name (q_c x) = t) by (intros x HX; now apply HLt).
    clearbody Lt. clear - HSt HN coll_iff. induction HSt as [|x l HF HSt IH]; cbn [map]; constructor.
    + apply IH. intros; apply HN; now right.
    + apply Forall_map. rewrite Forall_forall in *. intros y HY. specialize (HF y HY). rewrite (HN x (or_introl eq_refl)), (HN y (or_intror HY)) in HF.
      rewrite (proj2 (coll_iff t t) eq_refl) in HF. now apply Z.ltb_ge in HF.
  - intros name num l HC HN HL. destruct HC as (Hge & a & A1 & A2 & A3 & A4). destruct HO as (c & C1 & C2 & C3 & C4 & n & N1 & N2 & N3).
    rewrite count_map.
    rewrite (Permutation_length (filter_Permutation _ _ _ (filter_Permutation _ _ _ HP : Permutation Lt _))).
    rewrite !filter_filter. unfold column_quads.
    eapply eq_trans; [refine (count_pairs_left _ _ _ _ ((c, a), n) _ _ _)|].
    + apply NoDup_pairs; [apply NoDup_pairs|]; [exact (NoDup_map_inv _ _ (ps_oid _ sound))|exact (NoDup_map_inv _ _ (ps_num _ sound))|exact (NoDup_map_inv _ _ (ps_ns _ sound))].
    + apply in_triples. repeat (split; [assumption || congruence|]). congruence.
    + intros [[c' a'] n'] x HI. apply in_triples in HI. destruct HI as (I1 & I2 & I3 & I4 & I5).
      rewrite !andb_true_iff, wanted_iff, seqb_eq, Z.eqb_eq. unfold q_c, q_a, q_n. cbn [fst snd]. split.
      * intros ((J1 & J2 & J3 & J4) & J5 & J6).
        assert (En : n' = n) by (apply (NoDup_map_eq _ _ _ _ (ps_ns_name _ sound) I3 N1); congruence). subst n'.
        assert (Ec : c' = c) by (apply (NoDup_map_eq _ _ _ _ (ps_name _ sound) I1 C1); f_equal; congruence). subst c'.
        assert (Ea : a' = a) by (apply (NoDup_map_eq _ _ _ _ (ps_num _ sound) I2 A1); f_equal; congruence). congruence.
      * intros E. injection E as -> -> ->. repeat split; (congruence || lia).
    + f_equal. rewrite <- (Permutation_length (l := l) (l' := filter _ (indexes cat))); [reflexivity|].
      apply NoDup_Permutation; auto; [apply NoDup_filter, (NoDup_map_inv _ _ (ps_index _ sound))|].
      intros x. rewrite HL, filter_In, andb_true_iff, Z.eqb_eq, existsb_zeqb. cbn [fst snd]. unfold pg_has_index.
      rewrite A4, C3. split; intros H; intuition congruence.
  - intros cn. unfold schema_from. rewrite HR. cbn [ts_pks]. rewrite filter_map, map_map, in_map_iff. split.
    + intros (x & E & HX). apply filter_In in HX. destruct HX as [HX Hpk]. destruct (HLt x HX) as (X1 & X2 & X3).
      destruct (L_table x X1) as [_ HC]. cbn [typed_column fst snd] in E, Hpk. unfold is_pk in Hpk.
      destruct x as [[[c a] n] [i|]]; [|discriminate]. cbn [q_x snd] in Hpk. unfold q_c, q_a, q_n in *. cbn [fst snd] in *.
      exists (a_num a), i. rewrite <- E, <- X3. split; [exact HC|split; [|exact Hpk]].
      apply in_L in X1. destruct X1 as [X1 _]. apply in_quads_some in X1. unfold pg_has_index. intuition.
    + intros (num & i & (Hge & a & A1 & A2 & A3 & A4) & (I1 & I2 & I3) & Hpk). destruct HO as (c & C1 & C2 & C3 & C4 & n & N1 & N2 & N3).
      exists (((c, a), n), Some i). split; [exact A3|]. apply filter_In. split; [|exact Hpk]. apply filter_In. split; [|now apply seqb_eq].
      apply in_L. unfold q_c, q_a, q_n. cbn [fst snd]. split; [|repeat split; try congruence; lia].
      apply in_quads_some. repeat split; try congruence; try assumption; congruence.
Qed.
End Read.

(** * Indexes *)
Definition iquad := (((pg_index * pg_class) * pg_class) * pg_namespace)%type.
Definition y_x (y : iquad) : pg_index := fst (fst (fst y)).
Definition y_i (y : iquad) : pg_class := snd (fst (fst y)).
Definition y_t (y : iquad) : pg_class := snd (fst y).
Definition y_n (y : iquad) : pg_namespace := snd y.
Definition index_env (y : iquad) : env :=
  (([(lit "pg_index", Some (index_row (y_x y)))] ++ [(lit "i", Some (class_row (y_i y)))]) ++ [(lit "t", Some (class_row (y_t y)))]) ++
  [(lit "pg_namespace", Some (namespace_row (y_n y)))].
Definition index_quads : list iquad :=
  pairs (fun z n => Z.eqb (c_ns (snd (fst z))) (n_oid n))
    (pairs (fun z t => Z.eqb (x_rel (fst z)) (c_oid t))
       (pairs (fun x i => Z.eqb (x_id x) (c_oid i)) (indexes cat) (classes cat)) (classes cat)) (namespaces cat).
Lemma index_envs : forall args its e1 es, from_envs d args (pg_index_query its e1 es) = Some (map index_env index_quads).
Proof.
  intros args its e1 es. unfold from_envs.
  change (d_rel d (tr_name (q_from (pg_index_query its e1 es)))) with (Some (map index_row (indexes cat))). cbv iota.
  rewrite map_map. cbn [q_from pg_index_query q_joins join_tables].
  rewrite (join_inner d args (fun x => [(lit "pg_index", Some (index_row x))]) class_row (indexes cat) (classes cat) (t_ "pg_class" "i")
    _ (fun x i => Z.eqb (x_id x) (c_oid i))) by (intros; try reflexivity).
  rewrite (join_inner d args (fun z : pg_index * pg_class => [(lit "pg_index", Some (index_row (fst z)))] ++ [(lit "i", Some (class_row (snd z)))])
    class_row _ (classes cat) (t_ "pg_class" "t") _ (fun z t => Z.eqb (x_rel (fst z)) (c_oid t))) by (intros; try reflexivity).
  rewrite (join_inner d args (fun z : (pg_index * pg_class) * pg_class =>
      ([(lit "pg_index", Some (index_row (fst (fst z))))] ++ [(lit "i", Some (class_row (snd (fst z))))]) ++ [(lit "t", Some (class_row (snd z)))])
    namespace_row _ (namespaces cat) (t_ "pg_namespace" "pg_namespace") _ (fun z n => Z.eqb (c_ns (snd (fst z))) (n_oid n))) by (intros; try reflexivity).
  reflexivity.
Qed.
Lemma index_parts_length : forall name keys exprs, length (index_parts name keys exprs) = length keys.
Proof.
  intros name. induction keys as [|k keys IH]; intros exprs; cbn [index_parts]; auto.
  destruct (Z.eqb k 0); [destruct exprs|]; cbn [length]; now rewrite IH.
Qed.
Lemma nth_seq_all : forall (l : list gostring), map (fun k => nth (N.to_nat (N.of_nat k + 1) - 1) l []) (seq 0 (length l)) = l.
Proof.
  intros l. apply nth_ext with (d := []) (d' := []); [now rewrite map_length, seq_length|].
  rewrite map_length, seq_length. intros n Hn.
  rewrite (nth_indep _ _ (nth (N.to_nat (N.of_nat 0 + 1) - 1) l [])) by now rewrite map_length, seq_length.
  rewrite (map_nth (fun k => nth (N.to_nat (N.of_nat k + 1) - 1) l [])), seq_nth by exact Hn. f_equal. lia.
Qed.
Lemma find_index : forall x, In x (indexes cat) -> find (fun y => Z.eqb (x_id y) (x_id x)) (indexes cat) = Some x.
Proof.
  intros x H. destruct (find _ (indexes cat)) as [y|] eqn:E.
  - apply find_some in E. destruct E as [E1 E2]. apply Z.eqb_eq in E2. f_equal. exact (NoDup_map_eq _ _ _ _ (ps_index _ sound) E1 H E2).
  - exfalso. pose proof (find_none _ _ E x H) as HX. cbn in HX. now rewrite Z.eqb_refl in HX.
Qed.
Lemma index_texts_all : forall x, In x (indexes cat) ->
    map (fun k => pg_get_indexdef reserved cat (x_id x) (N.of_nat k + 1)) (seq 0 (length (x_key x))) = index_texts reserved cat x.
Proof.
  intros x H. unfold pg_get_indexdef. rewrite (find_index x H).
  replace (length (x_key x)) with (length (index_texts reserved cat x)) by apply index_parts_length. apply nth_seq_all.
Qed.
Definition index_wanted (schema : gostring) (tables : list gostring) (y : iquad) : bool :=
  coll_eq coll (n_name (y_n y)) schema && existsb (coll_eq coll (c_name (y_t y))) tables.
Lemma in_index_quads : forall x i t n, In (((x, i), t), n) index_quads <->
    In x (indexes cat) /\ In i (classes cat) /\ In t (classes cat) /\ In n (namespaces cat) /\ x_id x = c_oid i /\ x_rel x = c_oid t /\ c_ns i = n_oid n.
Proof. intros. unfold index_quads. rewrite !in_pairs, !Z.eqb_eq. cbn [fst snd]. tauto. Qed.
Definition index_answer (y : iquad) : row :=
  [(lit "table_name", VText (c_name (y_t y))); (lit "column_names", VTexts (index_texts reserved cat (y_x y)))].
Lemma index_answers : forall args its pre e1 es schema tables rows,
    (forall y, In y index_quads -> map_opt (fun it => option_map (pair (snd it)) (eval d args (index_env y) (fst it))) its = Some (pre y)) ->
    gives args e1 es schema tables -> answers d args (pg_index_query (its ++ index_items) e1 es) rows ->
    exists L, Permutation L (filter (index_wanted schema tables) index_quads) /\ rows = map (fun y => pre y ++ index_answer y) L.
Proof.
  intros args its pre e1 es schema tables rows Hpre HG HA.
  destruct (typed_answer d args _ rows index_env index_quads (index_wanted schema tables) (fun y => pre y ++ index_answer y) HA) as (L & P1 & _ & ->).
  - apply index_envs.
  - intros y _. destruct (HG (index_env y)) as [G1 G2]. cbn [q_where pg_index_query]. apply holds_bool. unfold index_wanted.
    apply eval_and; [apply (eval_eq_text d); [reflexivity|exact G1]|].
    apply (eval_in d _ _ _ (c_name (y_t y))); [reflexivity|exact G2].
  - intros y HY. unfold project. cbn [q_items pg_index_query].
    assert (HM : forall f (l1 l2 : list (expr * gostring)) (r1 r2 : row), map_opt f l1 = Some r1 -> map_opt f l2 = Some r2 -> map_opt f (l1 ++ l2) = Some (r1 ++ r2)).
    { intros f. induction l1 as [|a l1 IH]; intros l2 r1 r2 H1 H2; cbn [map_opt app] in *; [injection H1 as <-; exact H2|].
      destruct (f a); [|discriminate]. destruct (map_opt f l1) as [r|] eqn:E; [|discriminate]. injection H1 as <-. now rewrite (IH l2 r r2 eq_refl H2). }
    apply HM; [now apply Hpre|].
    destruct y as [[[x i] t] n]. apply in_index_quads in HY. destruct HY as [HX _].
    unfold index_answer, y_t, y_x. cbn [fst snd]. rewrite <- (index_texts_all x HX). reflexivity.
  - exists L. split; [exact P1|reflexivity].
Qed.
Definition typed_index (y : gostring * pg_index) : index_target := mk_it (fst y) (index_texts reserved cat (snd y)).
Lemma indexes_read : forall schema tables L, Permutation L (filter (index_wanted schema tables) index_quads) ->
    let ys := map (fun y => (c_name (y_t y), y_x y)) L in
    NoDup ys /\ forall t x, In (t, x) ys <-> In t tables /\ pg_index_of cat schema t x.
Proof.
  intros schema tables L HP ys. unfold ys. clear ys.
  assert (HL : forall y, In y L <-> In y index_quads /\ n_name (y_n y) = schema /\ In (c_name (y_t y)) tables).
  { intros y. rewrite <- coll_in, <- coll_eq_iff, <- andb_true_iff. change (_ && _) with (index_wanted schema tables y).
    rewrite <- filter_In. split; apply Permutation_in; [exact HP|now apply Permutation_sym]. }
  split.
  - assert (HN : NoDup L).
    { apply (Permutation_NoDup (Permutation_sym HP)), NoDup_filter. unfold index_quads.
      pose proof (NoDup_map_inv _ _ (ps_oid _ sound)). pose proof (NoDup_map_inv _ _ (ps_index _ sound)). pose proof (NoDup_map_inv _ _ (ps_ns _ sound)).
      repeat apply NoDup_pairs; assumption. }
    assert (HI : forall y y', In y L -> In y' L -> (c_name (y_t y), y_x y) = (c_name (y_t y'), y_x y') -> y = y').
    { intros [[[x i] t] n] [[[x' i'] t'] n'] H1 H2 E. apply HL in H1, H2. destruct H1 as [H1 _], H2 as [H2 _]. apply in_index_quads in H1, H2.
      injection E as _ E. cbn [y_x fst] in E. unfold y_x in E. cbn [fst] in E. subst x'.
      destruct H1 as (_ & I1 & I2 & I3 & I4 & I5 & I6), H2 as (_ & J1 & J2 & J3 & J4 & J5 & J6).
      assert (i' = i) by (apply (NoDup_map_eq _ _ _ _ (ps_oid _ sound) J1 I1); congruence). subst i'.
      assert (t' = t) by (apply (NoDup_map_eq _ _ _ _ (ps_oid _ sound) J2 I2); congruence). subst t'.
      assert (n' = n) by (apply (NoDup_map_eq _ _ _ _ (ps_ns _ sound) J3 I3); congruence). congruence. }
    clear - HN HI. induction L as [|y L IH]; cbn [map]; constructor; inversion HN as [|? ? N1 N2]; subst.
    + intros H. apply in_map_iff in H. destruct H as (y' & E & H). apply N1. rewrite <- (HI y' y); auto; [now right|now left].
    + apply IH; auto. intros; apply HI; auto; now right.
  - intros t x. rewrite in_map_iff. split.
    + intros ([[[x' i] t'] n] & E & HY). injection E as E1 E2. unfold y_t, y_x in *. cbn [fst snd] in *. subst x'. apply HL in HY. destruct HY as (H1 & H2 & H3).
      apply in_index_quads in H1. unfold y_n, y_t in *. cbn [fst snd] in *. destruct H1 as (I0 & I1 & I2 & I3 & I4 & I5 & I6).
      split; [congruence|]. split; [exact I0|split].
      * exists i. split; [exact I1|split; [congruence|]]. exists n. split; [exact I3|split; [congruence|exact H2]].
      * exists t'. split; [exact I2|split; [congruence|exact E1]].
    + intros (HT & H0 & (i & I1 & I2 & n & N1 & N2 & N3) & (c & C1 & C2 & C3)). exists (((x, i), c), n).
      split; [unfold y_t, y_x; cbn [fst snd]; congruence|]. apply HL. unfold y_n, y_t. cbn [fst snd]. split; [|split; congruence].
      apply in_index_quads. repeat (split; [assumption || congruence|]). congruence.
Qed.
End Pg.
