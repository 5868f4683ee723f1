(** C11-C18: from statement scopes to suggested indexes. *)
From Coq Require Import String List NArith Bool Lia Arith Permutation Sorting.
From Verif Require Import Base IndexText IndexBuild IndexBuildSpec IndexBuildProofs TableFields TableFieldsSpec
  TableFieldsProofs BuildSpec BuildProofs IndexHeap IndexHeapProofs.
Import ListNotations.
Local Open Scope string_scope.
Local Open Scope list_scope.

(** ** Concrete data for the examples *)
Definition id_ord {A} : order A := fun _ l => l.
Definition rev_ord {A} : order A := fun _ l => rev l.
Lemma id_ord_ok : forall A, is_order (@id_ord A).
Proof. intros A p l. apply Permutation_refl. Qed.
Lemma rev_ord_ok : forall A, is_order (@rev_ord A).
Proof. intros A p l. apply Permutation_sym, Permutation_rev. Qed.

Fixpoint insert (x : index_target_table) (l : list index_target_table) : list index_target_table :=
  match l with [] => [x] | y :: l' => if itt_less y x then y :: insert x l' else x :: y :: l' end.
Definition isort (l : list index_target_table) : list index_target_table := fold_right insert [] l.
Lemma itt_less_negtrans : forall x y z, itt_less z x = true -> itt_less z y = true \/ itt_less y x = true.
Proof.
  intros x y z H. destruct (itt_less z y) eqn:E1; auto. destruct (itt_less y x) eqn:E2; auto.
  exfalso. destruct (itt_less y z) eqn:E3.
  - rewrite (itt_less_trans _ _ _ E3 H) in E2. discriminate.
  - rewrite (itt_less_key y x z x (itt_less_total _ _ E3 E1) eq_refl) in E2. congruence.
Qed.
Lemma insert_perm : forall x l, Permutation (insert x l) (x :: l).
Proof.
  induction l as [|y l IH]; simpl; auto. destruct (itt_less y x); auto.
  eapply perm_trans; [apply perm_skip, IH|apply perm_swap].
Qed.
Lemma insert_sorted : forall x l, sorted_by itt_less l -> sorted_by itt_less (insert x l).
Proof.
  intros x l H. induction H as [|y l HF HS IH]; simpl; [repeat constructor|].
  destruct (itt_less y x) eqn:E.
  - constructor; auto. apply Forall_forall. intros z Hz. apply (Permutation_in _ (insert_perm x l)) in Hz.
    destruct Hz as [<-|Hz]; [|rewrite Forall_forall in HF; auto].
    destruct (itt_less x y) eqn:E2; auto. pose proof (itt_less_trans _ _ _ E E2) as E3. rewrite itt_less_irrefl in E3. discriminate.
  - constructor; [|constructor; auto]. constructor; auto. apply Forall_forall. intros z Hz.
    destruct (itt_less z x) eqn:E2; auto. destruct (itt_less_negtrans x y z E2) as [E3|E3]; [|congruence].
    rewrite Forall_forall in HF. rewrite (HF z Hz) in E3. discriminate.
Qed.
Lemma isort_ok : is_sort itt_less isort.
Proof.
  intros l. induction l as [|x l [IH1 IH2]]; simpl; [split; constructor|]. split.
  - eapply perm_trans; [apply insert_perm|]. now apply perm_skip.
  - now apply insert_sorted.
Qed.

Definition users := lit "users". Definition tasks := lit "tasks".
Definition ex_schemas : list table_schema :=
  [mk_ts users [lit "id"; lit "name"; lit "email"] [lit "id"];
   mk_ts tasks [lit "id"; lit "user_id"; lit "title"] [lit "id"]].
Definition rf_ (t c : string) := mk_fcol (of_string t) (of_string c) FReference.
Definition cd_ (t c : string) := mk_fcol (of_string t) (of_string c) FCondition.
Definition fld (c : fcol) := mk_field [] [c].
(** SELECT u.name, title FROM users u JOIN tasks t ON u.id = t.user_id WHERE u.email = ? *)
Definition ex_scope : scope :=
  Scope (lit "<root>") [fld (rf_ "u" "name"); fld (rf_ "" "title"); mk_field [] [cd_ "u" "id"; cd_ "t" "user_id"]; fld (cd_ "u" "email")]
    [] [mk_table (lit "u") users false; mk_table (lit "t") tasks false] [].
(** SELECT s.n FROM (SELECT name AS n, id FROM users) AS s WHERE EXISTS (SELECT * FROM tasks WHERE user_id = s.id) *)
Definition ex_nested : scope :=
  Scope (lit "<root>") [fld (rf_ "s" "n"); fld (mk_fcol [] (lit "<f1>") FSubquery)]
    [Scope (lit "<f1>") [fld (mk_fcol [] [] FStar); mk_field [] [cd_ "" "user_id"; cd_ "s" "id"]] [] [mk_table [] tasks false] []]
    [mk_table (lit "s") (lit "<s1>") false]
    [Scope (lit "<s1>") [mk_field (lit "n") [rf_ "" "name"]; fld (rf_ "" "id")] [] [mk_table [] users false] []].
Definition ex_build (scs : list scope) := build id_ord id_ord isort ex_schemas scs.
Definition tgt (t : string) (cs : list string) := mk_it (of_string t) (map of_string cs).

Example ex_scope_suggestions : ex_build [ex_scope] = Ok
  [tgt "tasks" ["user_id"]; tgt "tasks" ["user_id"; "title"];
   tgt "users" ["email"]; tgt "users" ["email"; "id"]; tgt "users" ["id"; "email"];
   tgt "users" ["email"; "id"; "name"]; tgt "users" ["id"; "email"; "name"]].
Proof. vm_compute. reflexivity. Qed.
Example ex_nested_suggestions : ex_build [ex_nested] = Ok
  [tgt "tasks" ["user_id"]; tgt "users" ["id"; "name"]].
Proof. vm_compute. reflexivity. Qed.

(** ** C11 *)
Lemma schema_map_get : forall schemas t ts, mget (schema_map schemas) t = Some ts -> In ts schemas /\ ts_name ts = t.
Proof.
  intros schemas t ts H. unfold schema_map in H. rewrite (mget_fold_mset ts_name (fun t => t)) in H.
  destruct (find _ (rev schemas)) as [x|] eqn:E; [|discriminate]. inversion H; subst.
  apply find_rev_In in E. destruct E as [E1 E2]. apply seqb_eq in E2. auto.
Qed.
Lemma build_In : forall ord ordf srt schemas scs its it, is_order ord -> is_sort itt_less srt ->
    build ord ordf srt schemas scs = Ok its -> In it its ->
    exists path sc ts x, In sc scs /\ build_from_scope ord ordf (schema_map schemas) path sc = Ok ts /\ In x ts /\
      it = to_index_target x.
Proof.
  intros ord ordf srt schemas scs its it Ho Hs H HI. unfold build in H.
  destruct (build_scopes ord ordf (schema_map schemas) 0 scs) as [ts|m|] eqn:E; simpl in H; try discriminate.
  inversion H; subst. apply in_map_iff in HI. destruct HI as (x & <- & Hx).
  apply (Permutation_in _ (proj1 (Hs ts))) in Hx.
  destruct (build_scopes_In _ _ _ _ _ _ _ E Hx) as (p & sc & ts' & H1 & H2 & H3). exists p, sc, ts', x. auto.
Qed.
Theorem suggested_columns_exist : forall ord ordf srt schemas scs its, is_order ord -> is_order ordf -> is_sort itt_less srt ->
    build ord ordf srt schemas scs = Ok its ->
    forall it, In it its ->
      exists ts, In ts schemas /\ ts_name ts = it_table it /\ forall c, In c (it_cols it) -> In c (ts_cols ts).
Proof.
  intros ord ordf srt schemas scs its Ho Hof Hs H it HI.
  destruct (build_In _ _ _ _ _ _ _ Ho Hs H HI) as (p & sc & ts & x & _ & HB & Hx & ->).
  destruct (target_origin ord ordf Ho _ _ _ _ x HB Hx) as (rf & l & sch & q & _ & _ & HS & HN & HC & HCols).
  destruct (schema_map_get _ _ _ HS) as [S1 S2]. exists sch. split; auto. split; auto.
  intros c Hc. simpl in Hc. apply in_map_iff in Hc. destruct Hc as ([c' ty] & <- & Hc).
  apply (index_composition_sound _ _ _ _ _ Hof HN) in HC. destruct HC as (_ & _ & HC & _). apply HC in Hc. eapply HCols; eauto.
Qed.
Example suggested_columns_exist_ex : exists its it, ex_build [ex_nested] = Ok its /\ In it its /\ it_cols it <> [].
Proof. eexists. exists (tgt "users" ["id"; "name"]). rewrite ex_nested_suggestions. split; [reflexivity|]. split; [simpl; tauto|discriminate]. Qed.
Print Assumptions suggested_columns_exist.

(** The check "unknown table exists" (index_target_builder.go:50-52) never fires. *)
Theorem unknown_table_never_reported : forall ord ordf db path sc m, is_order ord ->
    build_from_scope ord ordf db path sc = Err m -> table_fields ord db (path ++ [0]) sc = Err m.
Proof.
  intros ord ordf db path sc m Ho H. unfold build_from_scope in H.
  destruct (table_fields ord db (path ++ [0]) sc) as [rf|m'|] eqn:E; simpl in H; try discriminate; [|congruence].
  exfalso. destruct (table_fields_sound _ _ _ _ _ Ho E) as (o & us & HM & HR).
  destruct (means_ok db _ _ _ _ _ (nothing_ok db) HM) as [_ HU].
  destruct (scope_targets_ok ordf db (path ++ [1]) (entries ord (path ++ [2]) rf) 0) as [ts HT].
  - intros [t l] HI. apply entries_In in HI; auto. simpl. destruct HR as (_ & HR1 & _ & HR2 & _).
    destruct (HR1 _ _ HI) as [Hne _]. destruct l as [|[c ty] l]; [congruence|].
    destruct (HU t c ty) as (sch & Hs & _); [apply HR2; exists ((c, ty) :: l); split; auto; now left|]. simpl in Hs. congruence.
  - congruence.
Qed.
Example unknown_table_never_reported_ex :
  build_from_scope id_ord id_ord (schema_map ex_schemas) [] (Scope [] [fld (cd_ "x" "id")] [] [mk_table (lit "x") (lit "nope") false] [])
  = Err (lit ": no table found: nope").
Proof. vm_compute. reflexivity. Qed.
Print Assumptions unknown_table_never_reported.

(** ** C12 *)
Theorem suggestions_well_formed : forall ord ordf srt schemas scs its, is_order ord -> is_order ordf -> is_sort itt_less srt ->
    build ord ordf srt schemas scs = Ok its ->
    forall it, In it its ->
      it_cols it <> [] /\ NoDup (it_cols it) /\
      exists ts, In ts schemas /\ ts_name ts = it_table it /\ exists c, In c (it_cols it) /\ ~ In c (ts_pks ts).
Proof.
  intros ord ordf srt schemas scs its Ho Hof Hs H it HI.
  destruct (build_In _ _ _ _ _ _ _ Ho Hs H HI) as (p & sc & ts & x & _ & HB & Hx & ->).
  destruct (target_origin ord ordf Ho _ _ _ _ x HB Hx) as (rf & l & sch & q & _ & _ & HS & HN & HC & HCols).
  destruct (schema_map_get _ _ _ HS) as [S1 S2].
  pose proof (index_composition_sound _ _ _ _ _ Hof HN HC) as (C1 & C2 & _ & C4).
  split; [simpl; destruct (itt_fields x); simpl; congruence|]. split; [exact C2|].
  exists sch. split; auto. split; auto. rewrite <- pk_only_iff in C4.
  assert (HE : existsb (fun f => negb (str_in (if_name f) (ts_pks sch))) (itt_fields x) = true).
  { destruct (existsb _ (itt_fields x)) eqn:E; auto. elim C4. unfold pk_only. apply forallb_forall. intros f Hf.
    destruct (str_in (if_name f) (ts_pks sch)) eqn:E2; auto.
    assert (HX : existsb (fun f => negb (str_in (if_name f) (ts_pks sch))) (itt_fields x) = true).
    { apply existsb_exists. exists f. rewrite E2. auto. }
    congruence. }
  apply existsb_exists in HE. destruct HE as (f & Hf & HE). apply negb_true_iff, str_in_false in HE.
  exists (if_name f). split; auto. simpl. now apply in_map.
Qed.
Example suggestions_well_formed_ex : exists its, ex_build [ex_scope; ex_nested] = Ok its /\ length its = 9.
Proof. eexists. split; vm_compute; reflexivity. Qed.
Print Assumptions suggestions_well_formed.

(** ** C13 *)
Theorem candidate_indexes_exact : forall ord path s pks, is_order ord -> NoDup (map fst s) ->
    Forall (fun f => snd f = FReference \/ snd f = FCondition) s ->
    (forall l, In l (index_composition ord path s pks) <-> candidate s l /\ ~ only_pk pks l) /\
    NoDup (index_composition ord path s pks).
Proof.
  intros ord path s pks Ho HN HF. split.
  - apply index_composition_iff; auto. eapply Forall_impl; [|exact HF]. intros [c ty] [H|H]; simpl in H; subst; reflexivity.
  - now apply index_composition_NoDup.
Qed.
Example candidate_indexes_exact_ex :
  let f c := (lit c, FCondition) in let r c := (lit c, FReference) in
  let s := [f "b"; r "z"; r "y"; f "a"] in
  NoDup (map fst s) /\ length (index_composition id_ord [] s [lit "a"]) = 5 /\
  In [f "b"; f "a"; r "y"; r "z"] (index_composition id_ord [] s [lit "a"]) /\
  ~ In [f "b"; f "a"; r "z"; r "y"] (index_composition id_ord [] s [lit "a"]).
Proof.
  split; [repeat constructor; simpl; intuition discriminate|]. split; [vm_compute; reflexivity|].
  split; [vm_compute; tauto|vm_compute; intuition discriminate].
Qed.
Print Assumptions candidate_indexes_exact.

(** The whole way from the meaning of a statement: exactly these indexes are suggested. *)
Theorem suggestions_exact : forall ord ordf srt schemas sc o us, is_order ord -> is_order ordf -> is_sort itt_less srt ->
    means (schema_map schemas) False sc nothing o us -> plain us ->
    exists its, build ord ordf srt schemas [sc] = Ok its /\
      forall it, In it its <->
        exists s ts l, columns_used us (it_table it) s /\ mget (schema_map schemas) (it_table it) = Some ts /\
          candidate s l /\ ~ only_pk (ts_pks ts) l /\ it_cols it = map fst l.
Proof.
  intros ord ordf srt schemas sc o us Ho Hof Hs HM HP. unfold build. simpl.
  destruct (build_from_scope_spec ord ordf _ [0] sc o us Ho Hof HM HP) as (ts & -> & _ & HI). simpl. rewrite app_nil_r.
  eexists. split; [reflexivity|]. intros it. rewrite in_map_iff. split.
  - intros (x & <- & Hx). apply (Permutation_in _ (proj1 (Hs ts))) in Hx. apply HI in Hx.
    destruct Hx as (s & sch & H1 & H2 & H3 & H4). exists s, sch, (itt_fields x). simpl. auto.
  - intros (s & sch & l & H1 & H2 & H3 & H4 & H5).
    exists {| itt_table := it_table it; itt_fields := l |}. split.
    + destruct it as [t cs]. simpl in *. subst. reflexivity.
    + apply (Permutation_in _ (Permutation_sym (proj1 (Hs ts)))). apply HI. exists s, sch. simpl. auto.
Qed.
(** ex_scope has an unambiguous meaning. *)
Definition ex_uses : list use :=
  [(users, lit "name", FReference); (tasks, lit "title", FReference);
   (users, lit "id", FCondition); (tasks, lit "user_id", FCondition); (users, lit "email", FCondition)].
Lemma ex_scope_means : exists o, means (schema_map ex_schemas) False ex_scope nothing o ex_uses.
Proof.
  set (tbls := [mk_table (lit "u") users false; mk_table (lit "t") tasks false]).
  set (e := start (schema_map ex_schemas) tbls nothing).
  assert (HT : forall r, unqualified e (lit "title") r -> r = [(tasks, lit "title")]).
  { intros r [(k & f & H1 & H2)|[_ [(k & f & H1 & _)|(_ & H1 & _)]]]; [|discriminate|elim H1; reflexivity].
    unfold e, start, s_int, base in H1.
    destruct (existsb _ tbls) eqn:EX; [|discriminate]. apply existsb_exists in EX. destruct EX as (t & Ht & EX).
    apply seqb_eq in EX. destruct Ht as [<-|[<-|[]]]; simpl in EX; subst k; vm_compute in H1; inversion H1; subst; vm_compute in H2.
    - discriminate.
    - inversion H2. reflexivity. }
  exists (fun n => mget [(lit "name", [(users, lit "name")]); (lit "title", [(tasks, lit "title")]); (lit "email", [(users, lit "email")])] n).
  change ex_uses with ([] ++ [] ++ ex_uses).
  eapply (means_scope _ _ _ _ _ _ _ _ e e).
  - constructor.
  - constructor.
  - assert (HQ : forall c r, fc_table c <> [] -> (fc_type c = FReference \/ fc_type c = FCondition) ->
        match named e (fc_table c) with Some f => f (fc_name c) | None => None end = Some r -> col_means False e c r).
    { intros c r H1 H2 H3. unfold col_means. destruct (named e (fc_table c)) as [f|] eqn:EN; [|discriminate].
      destruct (fc_table c) as [|x a] eqn:ET; [congruence|]. destruct H2 as [-> | ->]; exists f; auto. }
    eapply (fm_cons False e (fld (rf_ "u" "name")) _ [(users, lit "name")] _ [(users, lit "name", FReference)] _).
    { change [(users, lit "name")] with ([(users, lit "name")] ++ []).
      apply (cm_cons False e (rf_ "u" "name") [] [(users, lit "name")] [] []); [|constructor].
      apply HQ; [discriminate|left; reflexivity|vm_compute; reflexivity]. }
    eapply (fm_cons False e (fld (rf_ "" "title")) _ [(tasks, lit "title")] _ [(tasks, lit "title", FReference)] _).
    { apply (cm_cons False e (rf_ "" "title") [] [(tasks, lit "title")] [] []); [|constructor].
      split; [|right; exact HT]. left. exists tasks. eexists. split; vm_compute; reflexivity. }
    eapply (fm_cons False e (mk_field [] [cd_ "u" "id"; cd_ "t" "user_id"]) _ [(users, lit "id"); (tasks, lit "user_id")] _
             [(users, lit "id", FCondition); (tasks, lit "user_id", FCondition)] _).
    { apply (cm_cons False e (cd_ "u" "id") [cd_ "t" "user_id"] [(users, lit "id")] [(tasks, lit "user_id")] [(tasks, lit "user_id", FCondition)]).
      - apply HQ; [discriminate|right; reflexivity|vm_compute; reflexivity].
      - apply (cm_cons False e (cd_ "t" "user_id") [] [(tasks, lit "user_id")] [] []); [|constructor].
        apply HQ; [discriminate|right; reflexivity|vm_compute; reflexivity]. }
    apply (fm_cons False e (fld (cd_ "u" "email")) [] [(users, lit "email")] [] [(users, lit "email", FCondition)] []); [|constructor].
    apply (cm_cons False e (cd_ "u" "email") [] [(users, lit "email")] [] []); [|constructor].
    apply HQ; [discriminate|right; reflexivity|vm_compute; reflexivity].
  - intros a (f & c & Hf & Hc & HS & _). exfalso.
    simpl in Hf. repeat (destruct Hf as [<-|Hf]; [simpl in Hc; repeat (destruct Hc as [<-|Hc]; [discriminate|]); destruct Hc|]). destruct Hf.
  - intros n. assert (HNS : forall r, ~ star_means e [fld (rf_ "u" "name"); fld (rf_ "" "title"); mk_field [] [cd_ "u" "id"; cd_ "t" "user_id"]; fld (cd_ "u" "email")] n r).
    { intros r (a & (f & c & Hf & Hc & HS & _) & _).
      simpl in Hf. repeat (destruct Hf as [<-|Hf]; [simpl in Hc; repeat (destruct Hc as [<-|Hc]; [discriminate|]); destruct Hc|]). destruct Hf. }
    cbn [field_name fld rf_ cd_ f_as f_cols fc_name of_string].
    match goal with |- match mget ?m n with _ => _ end => 
      change m with [(lit "name", [(users, lit "name")]); (lit "title", [(tasks, lit "title")]); (lit "email", [(users, lit "email")])] end.
    destruct (mget _ n) eqn:E; auto.
Qed.
Example suggestions_exact_ex : exists o us, means (schema_map ex_schemas) False ex_scope nothing o us /\ plain us /\ us <> [].
Proof.
  destruct ex_scope_means as [o H]. exists o, ex_uses. split; auto. split; [|discriminate].
  intros t c ty HI. simpl in HI. repeat (destruct HI as [HI|HI]; [inversion HI; auto|]). destruct HI.
Qed.
Print Assumptions suggestions_exact.

(** ** C14 *)
Theorem suggestions_sorted : forall ord ordf srt schemas scs its, is_sort itt_less srt ->
    build ord ordf srt schemas scs = Ok its -> StronglySorted (fun a b => ~ target_lt b a) its.
Proof.
  intros ord ordf srt schemas scs its Hs H. unfold build in H.
  destruct (build_scopes _ _ _ _ scs) as [ts|m|]; simpl in H; try discriminate. inversion H; subst.
  apply sorted_targets. apply Hs.
Qed.
Example suggestions_sorted_ex : is_sort itt_less isort /\ exists its, ex_build [ex_scope] = Ok its /\ length its = 7.
Proof. split; [apply isort_ok|]. eexists. rewrite ex_scope_suggestions. split; reflexivity. Qed.
Print Assumptions suggestions_sorted.

Theorem suggestions_no_duplicates : forall ord ordf srt schemas sc its, is_order ord -> is_order ordf -> is_sort itt_less srt ->
    build ord ordf srt schemas [sc] = Ok its -> NoDup its.
Proof.
  intros ord ordf srt schemas sc its Ho Hof Hs H. unfold build in H. simpl in H.
  destruct (build_from_scope ord ordf (schema_map schemas) [0] sc) as [ts|m|] eqn:E; simpl in H; try discriminate.
  rewrite app_nil_r in H. inversion H; subst.
  apply (Permutation_NoDup (l := map to_index_target ts)).
  - apply Permutation_map, Permutation_sym, Hs.
  - eapply target_keys_NoDup; eauto.
Qed.
Example suggestions_no_duplicates_ex : exists its, ex_build [ex_scope] = Ok its /\ its <> [].
Proof. eexists. rewrite ex_scope_suggestions. split; [reflexivity|discriminate]. Qed.
Print Assumptions suggestions_no_duplicates.

(** The same statement twice (two scopes) gives each suggestion twice. *)
Theorem suggestions_no_duplicates_refuted : exists scs its, ex_build scs = Ok its /\ ~ NoDup its.
Proof.
  exists [ex_nested; ex_nested]. eexists. split; [vm_compute; reflexivity|].
  intros H. inversion H as [|? ? Hn _]. apply Hn. left. reflexivity.
Qed.
Print Assumptions suggestions_no_duplicates_refuted.

Theorem suggestions_reproducible : forall ord ord' ordf ordf' srt srt' schemas scs,
    is_order ord -> is_order ord' -> is_order ordf -> is_order ordf' -> is_sort itt_less srt -> is_sort itt_less srt' ->
    Forall (fun sc => exists o us, means (schema_map schemas) False sc nothing o us /\ plain us) scs ->
    exists its, build ord ordf srt schemas scs = Ok its /\ build ord' ordf' srt' schemas scs = Ok its.
Proof.
  intros ord ord' ordf ordf' srt srt' schemas scs Ho Ho' Hof Hof' Hs Hs' HF.
  assert (HU : exists oss, Forall2 (fun sc us => (exists o, means (schema_map schemas) False sc nothing o us) /\ plain us) scs oss).
  { induction HF as [|sc scs (o & us & HM & HP) HF [oss IH]]; [exists []; constructor|]. exists (us :: oss). constructor; eauto. }
  destruct HU as [oss HU].
  destruct (build_scopes_spec ord ordf (schema_map schemas) scs oss 0 Ho Hof HU) as (tss & E1 & T1).
  destruct (build_scopes_spec ord' ordf' (schema_map schemas) scs oss 0 Ho' Hof' HU) as (tss' & E2 & T2).
  unfold build. rewrite E1, E2. simpl. eexists. split; [reflexivity|]. f_equal.
  apply srt_same; auto. apply Permutation_sym. eapply concat_perm; eauto.
Qed.
Example suggestions_reproducible_ex :
  Forall (fun sc => exists o us, means (schema_map ex_schemas) False sc nothing o us /\ plain us) [ex_scope].
Proof. constructor; [|constructor]. destruct suggestions_exact_ex as (o & us & H1 & H2 & _). eauto. Qed.
Print Assumptions suggestions_reproducible.

(** With an ambiguous name (a JOIN b USING (x) ... WHERE x = ?) the result depends on the map order. *)
Definition amb_schemas := [mk_ts (lit "a") [lit "x"] []; mk_ts (lit "b") [lit "x"] []].
Definition amb_scope := Scope [] [fld (cd_ "" "x")] [] [mk_table [] (lit "a") false; mk_table [] (lit "b") false] [].
Theorem suggestions_reproducible_refuted : exists schemas scs ord ord' ordf srt,
    is_order ord /\ is_order ord' /\ is_order ordf /\ is_sort itt_less srt /\
    build ord ordf srt schemas scs <> build ord' ordf srt schemas scs /\
    build ord ordf srt schemas scs <> Panic /\ build ord' ordf srt schemas scs <> Panic.
Proof.
  exists amb_schemas, [amb_scope], id_ord, rev_ord, id_ord, isort.
  split; [apply id_ord_ok|]. split; [apply rev_ord_ok|]. split; [apply id_ord_ok|]. split; [apply isort_ok|].
  vm_compute. split; [|split]; discriminate.
Qed.
Print Assumptions suggestions_reproducible_refuted.

(** ** C15 *)
Theorem slice_sharing_harmless : forall grow ord fuel path s h h' sl,
    composite_heap grow ord fuel path s h = (h', sl) ->
    map (read h') sl = map (map Some) (composite ord fuel path s) /\
    NoDup (map s_id sl) /\
    (forall old, s_id old < h_next h -> read h' old = read h old).
Proof.
  intros grow ord fuel path s h h' sl H. destruct (composite_heap_spec _ _ _ _ _ _ _ _ H) as [(_ & H2 & H3) [_ H4]].
  split; auto. split; auto. intros old Hold. unfold read. rewrite H4; auto.
Qed.
Example slice_sharing_harmless_ex :
  let f c := (lit c, FCondition) in
  let h0 := mk_heap 3 (fun _ => []) in
  let r := composite_heap (fun id cap => cap + 2) id_ord 3 [] [f "a"; f "b"; f "c"] h0 in
  length (snd r) = 15 /\ existsb (fun s => Nat.ltb (s_len s) (s_cap s)) (snd r) = true.
Proof. vm_compute. auto. Qed.
Print Assumptions slice_sharing_harmless.

(** ** C16 *)
Theorem each_column_once_conditions_win : forall ord db path sc rf, is_order ord ->
    table_fields ord db path sc = Ok rf ->
    exists o us, means db True sc nothing o us /\ records rf us.
Proof. intros. eapply table_fields_sound; eauto. Qed.
Example each_column_once_conditions_win_ex : exists rf, table_fields id_ord (schema_map ex_schemas) [] ex_scope = Ok rf /\
  recorded rf users (lit "id") FCondition /\ recorded rf users (lit "name") FReference.
Proof.
  eexists. split; [vm_compute; reflexivity|]. split; eexists; (split; [vm_compute; reflexivity|simpl; tauto]).
Qed.
Print Assumptions each_column_once_conditions_win.

(** For any sequence of uses, in any order: once, and a condition iff used as one. *)
Theorem uses_recorded : forall us, plain us ->
    let rf := fold_left (fun rf u => add_field rf (fst (fst u)) (snd (fst u), snd u)) us [] in
    (forall t l, mget rf t = Some l -> NoDup (map fst l)) /\
    (forall t c, recorded rf t c FCondition <-> In (t, c, FCondition) us) /\
    (forall t c, recorded rf t c FReference <-> In (t, c, FReference) us /\ ~ In (t, c, FCondition) us) /\
    (forall t c ty, recorded rf t c ty -> ty = FReference \/ ty = FCondition).
Proof.
  intros us HP rf. pose proof (records_fold us [] [] records_nil) as HR. simpl in HR.
  change (fold_left add_use us []) with rf in HR.
  pose proof HR as (_ & R2 & R3 & R4 & R5). split; [|split; [|split]].
  - intros t l Hl. apply (R2 t l Hl).
  - apply R5. exact HP.
  - intros t c. split.
    + intros Hr. split; [now apply R4|]. intros HI. apply R5 in HI; [|exact HP].
      destruct Hr as (l & Hl & H1). destruct HI as (l' & Hl' & H2). assert (l = l') by congruence. subst l'.
      pose proof (name_inj l _ _ (proj2 (R2 t l Hl)) H1 H2 eq_refl). discriminate.
    + intros [HI HN]. destruct (proj2 (R3 t c)) as [ty Hr]; [eauto|]. pose proof (R4 _ _ _ Hr) as HI2.
      destruct (HP _ _ _ HI2) as [-> | ->]; [exact Hr|tauto].
  - intros t c ty Hr. apply R4 in Hr. eapply HP; eauto.
Qed.
Example uses_recorded_ex : plain [(users, lit "id", FReference); (users, lit "id", FCondition); (users, lit "id", FReference)].
Proof. intros t c ty HI. simpl in HI. repeat (destruct HI as [HI|HI]; [inversion HI; auto|]). destruct HI. Qed.
Print Assumptions uses_recorded.

(** ** C17 *)
Definition ordinary (c : fcol) : Prop := fc_type c <> FSubquery /\ fc_type c <> FStar.

Lemma last_such_unique : forall tables t, NoDup (map as_or_name tables) -> In t tables ->
    last_such (fun x => seqb (as_or_name x) (as_or_name t)) tables = Some t.
Proof.
  induction tables as [|x tables IH]; intros t HN HI; [destruct HI|]. simpl in HN. inversion HN; subst. simpl.
  destruct HI as [->|HI].
  - destruct (last_such _ tables) as [t'|] eqn:E.
    + rewrite last_such_find in E. apply find_rev_In in E. destruct E as [E1 E2]. apply seqb_eq in E2.
      elim H1. rewrite <- E2. now apply in_map.
    + now rewrite seqb_refl.
  - now rewrite (IH t).
Qed.

(** In a scope over base tables with distinct aliases, a qualified column is the
    column of the table behind the alias; otherwise it is an error. *)
Theorem qualified_resolution : forall ord db path tables ext c, is_order ord ->
    NoDup (map as_or_name tables) -> ordinary c -> fc_table c <> [] ->
    let res := column_refs ord path (new_info db tables ext) c in
    (forall t, In t tables -> as_or_name t = fc_table c -> schema_col db (t_name t, fc_name c) ->
       res = Ok [(t_name t, fc_name c)]) /\
    (forall t ts, In t tables -> as_or_name t = fc_table c -> mget db (t_name t) = Some ts -> ts_cols ts <> [] ->
       ~ In (fc_name c) (ts_cols ts) -> res = Err (no_column (fc_name c))) /\
    ((forall t, In t tables -> as_or_name t <> fc_table c) -> ~ In (fc_table c) (keys ext) ->
       res = Err (no_table (fc_table c))).
Proof.
  intros ord db path tables ext c Ho HN [O1 O2] Hq res.
  set (E := fun k => match mget ext k with Some cols => Some (fun n => find_col n cols) | None => None end).
  assert (Hres : res = do cols <- table_cols (new_info db tables ext) (fc_table c);
      match find_col (fc_name c) cols with Some r => Ok r | None => Err (no_column (fc_name c)) end).
  { unfold res, column_refs. destruct (fc_table c) eqn:ET; [congruence|]. destruct (fc_type c); congruence. }
  assert (Has : mget (i_as (new_info db tables ext)) (fc_table c) =
      match last_such (fun t => seqb (as_or_name t) (fc_table c)) tables with
      | Some t => Some (t_name t)
      | None => if str_in (fc_table c) (keys ext) then Some (fc_table c) else None
      end).
  { unfold new_info. simpl. rewrite mget_fold_mset, last_such_find. destruct (find _ (rev tables)); auto.
    rewrite (mget_fold_mset (fun k => k) (fun k => k)).
    destruct (find (fun b => seqb b (fc_table c)) (rev (keys ext))) as [k|] eqn:EF.
    - apply find_rev_In in EF. destruct EF as [HI EF]. apply seqb_eq in EF. subst k.
      apply str_in_iff in HI. now rewrite HI.
    - destruct (str_in (fc_table c) (keys ext)) eqn:ES; auto. apply str_in_iff, in_rev in ES.
      apply (find_none _ _ EF) in ES. rewrite seqb_refl in ES. discriminate. }
  assert (HB := referencing_columns_den db tables).
  assert (HBase : forall t ts, In t tables -> mget db (t_name t) = Some ts -> ts_cols ts <> [] ->
     exists cols, mget (referencing_columns db tables) (t_name t) = Some cols /\
       forall n, find_col n cols = if str_in n (ts_cols ts) then Some [(t_name t, n)] else None).
  { intros t ts HI HD Hne.
    assert (HBB : base db tables (t_name t) = Some (fun n => if str_in n (ts_cols ts) then Some [(t_name t, n)] else None)).
    { unfold base. assert (HX : existsb (fun t0 => seqb (t_name t0) (t_name t)) tables = true).
      { apply existsb_exists. exists t. split; auto. apply seqb_refl. }
      rewrite HX, HD. destruct (ts_cols ts) eqn:EC; [congruence|]. now rewrite <- EC. }
    destruct (denE_Some' _ _ _ _ HB HBB) as (cols & Hc & Hd). exists cols. split; auto. }
  assert (HG : forall t ts, In t tables -> as_or_name t = fc_table c -> mget db (t_name t) = Some ts -> ts_cols ts <> [] ->
     res = if str_in (fc_name c) (ts_cols ts) then Ok [(t_name t, fc_name c)] else Err (no_column (fc_name c))).
  { intros t ts HI Hal HD Hne. rewrite Hres. unfold table_cols. rewrite Has, <- Hal, last_such_unique by auto.
    destruct (HBase t ts HI HD Hne) as (cols & Hc & Hf). simpl. rewrite Hc. simpl. rewrite Hf.
    destruct (str_in (fc_name c) (ts_cols ts)); reflexivity. }
  split; [|split].
  - intros t HI Hal (ts & HD & HC). simpl in HD, HC. rewrite (HG t ts); auto.
    + apply str_in_iff in HC. now rewrite HC.
    + intros E0. rewrite E0 in HC. destruct HC.
  - intros t ts HI Hal HD Hne HC. rewrite (HG t ts) by auto. apply str_in_false in HC. now rewrite HC.
  - intros Hno Hext. rewrite Hres. unfold table_cols. rewrite Has.
    destruct (last_such _ tables) as [t|] eqn:EL.
    + rewrite last_such_find in EL. apply find_rev_In in EL. destruct EL as [EL1 EL2]. apply seqb_eq in EL2. elim (Hno t EL1 EL2).
    + apply str_in_false in Hext. rewrite Hext. reflexivity.
Qed.
Example qualified_resolution_ex :
  let i := new_info (schema_map ex_schemas) [mk_table (lit "u") users false; mk_table (lit "t") tasks false] [] in
  column_refs id_ord [] i (cd_ "u" "name") = Ok [(users, lit "name")] /\
  column_refs id_ord [] i (cd_ "u" "title") = Err (lit ": no column found for title") /\
  column_refs id_ord [] i (cd_ "users" "name") = Err (lit ": no table found: users").
Proof. vm_compute. auto. Qed.
Print Assumptions qualified_resolution.

Lemma cols_mean_In : forall amb e cs rs us, cols_mean amb e cs rs us ->
    (forall c, In c cs -> exists r, col_means amb e c r /\ forall ci, In ci r -> In (fst ci, snd ci, fc_type c) us) /\
    (forall t n ty, In (t, n, ty) us -> exists c r, In c cs /\ col_means amb e c r /\ In (t, n) r /\ ty = fc_type c).
Proof.
  intros amb e cs rs us H. induction H as [|c cs r rs us H1 H2 [IH1 IH2]].
  - split; [intros c []|intros t n ty []].
  - split.
    + intros c' [<-|HI].
      * exists r. split; auto. intros ci Hci. apply in_or_app. left. unfold uses_of. apply in_map_iff. exists ci. auto.
      * destruct (IH1 c' HI) as (r' & Hr' & Hu). exists r'. split; auto. intros ci Hci. apply in_or_app. auto.
    + intros t n ty HI. apply in_app_or in HI. destruct HI as [HI|HI].
      * unfold uses_of in HI. apply in_map_iff in HI. destruct HI as ([t' n'] & E & HI). inversion E; subst.
        exists c, r. simpl. auto.
      * destruct (IH2 t n ty HI) as (c' & r' & ? & ? & ? & ?). exists c', r'. simpl. auto.
Qed.
Lemma fields_mean_In : forall amb e fs outs us, fields_mean amb e fs outs us ->
    (forall f c, In f fs -> In c (f_cols f) -> exists r, col_means amb e c r /\ forall ci, In ci r -> In (fst ci, snd ci, fc_type c) us) /\
    (forall t n ty, In (t, n, ty) us -> exists f c r, In f fs /\ In c (f_cols f) /\ col_means amb e c r /\ In (t, n) r /\ ty = fc_type c).
Proof.
  intros amb e fs outs us H. induction H as [|f fs r outs us us' H1 H2 [IH1 IH2]].
  - split; [intros f c []|intros t n ty []].
  - destruct (cols_mean_In _ _ _ _ _ H1) as [C1 C2]. split.
    + intros f' c [<-|HI] Hc.
      * destruct (C1 c Hc) as (r' & Hr' & Hu). exists r'. split; auto. intros ci Hci. apply in_or_app. auto.
      * destruct (IH1 f' c HI Hc) as (r' & Hr' & Hu). exists r'. split; auto. intros ci Hci. apply in_or_app. auto.
    + intros t n ty HI. apply in_app_or in HI. destruct HI as [HI|HI].
      * destruct (C2 t n ty HI) as (c & r' & ? & ? & ? & ?). exists f, c, r'. simpl. auto 6.
      * destruct (IH2 t n ty HI) as (f' & c & r' & ? & ? & ? & ? & ?). exists f', c, r'. simpl. auto 6.
Qed.
(** A statement over base tables in which every column is qualified: on success
    exactly the columns behind the aliases are recorded. *)
Theorem flat_scope_attribution : forall ord db path name fields tables l rf, is_order ord ->
    NoDup (map as_or_name tables) ->
    (forall f c, In f fields -> In c (f_cols f) -> ordinary c -> fc_table c <> []) ->
    calc ord db path (Scope name fields [] tables []) [] = Ok (l, rf) ->
    forall T C, (exists ty, recorded rf T C ty) <->
      (exists f c t, In f fields /\ In c (f_cols f) /\ ordinary c /\ fc_name c = C /\
         In t tables /\ as_or_name t = fc_table c /\ t_name t = T).
Proof.
  intros ord db path name fields tables l rf Ho HN Hq H T C.
  destruct (calc_sound ord Ho db _ _ _ _ _ _ nothing_den H) as (o & us & HM & _ & HR).
  inversion HM; subst. clear HM.
  match goal with HX : subs_mean _ _ _ _ _ _ _ _ |- _ => inversion HX; subst end.
  match goal with HX : fscopes_mean _ _ _ _ _ _ _ |- _ => inversion HX; subst end.
  match goal with HX : fields_mean _ _ _ _ _ |- _ => destruct (fields_mean_In _ _ _ _ _ HX) as [M1 M2] end.
  simpl in HR. destruct HR as (_ & _ & HR & _). rewrite HR.
  assert (HQ : forall c r, ordinary c -> fc_table c <> [] -> col_means True (start db tables nothing) c r ->
     exists t, In t tables /\ as_or_name t = fc_table c /\ r = [(t_name t, fc_name c)]).
  { intros c r [O1 O2] Hne Hm. unfold col_means in Hm.
    assert (Hm' : exists f, named (start db tables nothing) (fc_table c) = Some f /\ f (fc_name c) = Some r).
    { destruct (fc_table c) eqn:ET; [congruence|]. destruct (fc_type c); congruence || exact Hm. }
    destruct Hm' as (f & Hf & Hr). unfold named in Hf. simpl in Hf.
    destruct (last_such _ tables) as [t|] eqn:EL; [|discriminate].
    rewrite last_such_find in EL. apply find_rev_In in EL. destruct EL as [EL1 EL2]. apply seqb_eq in EL2.
    exists t. split; auto. split; auto. unfold base in Hf. destruct (existsb _ tables); [|discriminate].
    destruct (mget db (t_name t)) as [ts|]; [|discriminate]. destruct (ts_cols ts) eqn:EC; [discriminate|].
    rewrite <- EC in Hf. injection Hf as <-. destruct (str_in (fc_name c) (ts_cols ts)); [|discriminate]. now inversion Hr. }
  assert (HO : forall c, {ordinary c} + {~ ordinary c}).
  { intros c. unfold ordinary. destruct (fc_type c); try (left; split; discriminate); right; intros [H1 H2]; congruence. }
  split.
  - intros [ty HI]. destruct (M2 _ _ _ HI) as (f & c & r & Hf & Hc & Hm & Hin & _).
    destruct (HO c) as [Hc'|Hc'].
    + destruct (HQ c r Hc' (Hq f c Hf Hc Hc') Hm) as (t & Ht & Hal & ->). destruct Hin as [Hin|[]]. inversion Hin; subst.
      exists f, c, t. auto 10.
    + exfalso. unfold col_means, ordinary in *. destruct (fc_type c); try (apply Hc'; split; discriminate); subst; destruct Hin.
  - intros (f & c & t & Hf & Hc & Hord & <- & Ht & Hal & <-).
    destruct (M1 f c Hf Hc) as (r & Hm & Hu). destruct (HQ c r Hord (Hq f c Hf Hc Hord) Hm) as (t' & Ht' & Hal' & ->).
    exists (fc_type c). specialize (Hu _ (or_introl eq_refl)). simpl in Hu.
    replace t with t'; auto.
    assert (HL := last_such_unique tables t HN Ht). assert (HL' := last_such_unique tables t' HN Ht').
    rewrite Hal in HL. rewrite Hal' in HL'. congruence.
Qed.
Example flat_scope_attribution_ex : exists l rf, calc id_ord (schema_map ex_schemas) []
    (Scope [] [fld (cd_ "u" "name"); fld (rf_ "t" "title")] [] [mk_table (lit "u") users false; mk_table (lit "t") tasks false] []) [] = Ok (l, rf)
  /\ recorded rf users (lit "name") FCondition.
Proof. eexists. eexists. split; [vm_compute; reflexivity|]. eexists. split; [vm_compute; reflexivity|simpl; auto]. Qed.
Print Assumptions flat_scope_attribution.

(** A column that cannot be resolved is never dropped silently. *)
Theorem unresolved_is_error : forall ord db path name fields tables f c, is_order ord ->
    In f fields -> In c (f_cols f) -> ordinary c -> fc_table c <> [] ->
    (forall t, In t tables -> as_or_name t = fc_table c -> ~ schema_col db (t_name t, fc_name c)) ->
    exists m, calc ord db path (Scope name fields [] tables []) [] = Err m.
Proof.
  intros ord db path name fields tables f c Ho Hf Hc [O1 O2] Hne Hno.
  destruct (calc ord db path (Scope name fields [] tables []) []) as [[l rf]|m|] eqn:E; [|eauto|].
  - exfalso. destruct (calc_sound ord Ho db _ _ _ _ _ _ nothing_den E) as (o & us & HM & _ & HR).
    inversion HM; subst. clear HM.
    match goal with HX : subs_mean _ _ _ _ _ _ _ _ |- _ => inversion HX; subst end.
    match goal with HX : fscopes_mean _ _ _ _ _ _ _ |- _ => inversion HX; subst end.
    match goal with HX : fields_mean _ _ _ _ _ |- _ => destruct (fields_mean_In _ _ _ _ _ HX) as [M1 _] end.
    destruct (M1 f c Hf Hc) as (r & Hm & _). unfold col_means in Hm.
    assert (Hm' : exists g, named (start db tables nothing) (fc_table c) = Some g /\ g (fc_name c) = Some r).
    { destruct (fc_table c) eqn:ET; [congruence|]. destruct (fc_type c); congruence || exact Hm. }
    destruct Hm' as (g & Hg & Hr). unfold named in Hg. simpl in Hg.
    destruct (last_such _ tables) as [t|] eqn:EL; [|discriminate].
    rewrite last_such_find in EL. apply find_rev_In in EL. destruct EL as [EL1 EL2]. apply seqb_eq in EL2.
    apply (Hno t EL1 EL2). unfold base in Hg. destruct (existsb _ tables); [|discriminate].
    destruct (mget db (t_name t)) as [ts|] eqn:ED; [|discriminate]. destruct (ts_cols ts) eqn:EC; [discriminate|].
    rewrite <- EC in Hg. injection Hg as <-. destruct (str_in (fc_name c) (ts_cols ts)) eqn:ES; [|discriminate].
    exists ts. split; auto. now apply str_in_iff.
  - exfalso. refine (calc_no_panic ord db _ _ _ _ E). simpl. auto.
Qed.
Example unresolved_is_error_ex : calc id_ord (schema_map ex_schemas) []
    (Scope [] [fld (cd_ "u" "nope")] [] [mk_table (lit "u") users false] []) [] = Err (lit ": no column found for nope").
Proof. vm_compute. reflexivity. Qed.
Print Assumptions unresolved_is_error.

(** ... FROM users AS tasks WHERE EXISTS (SELECT 1 FROM tasks AS t WHERE tasks.id = t.user_id):
    SQL means users.id, the program records tasks.id. *)
Definition capture_scope : scope :=
  Scope [] [fld (mk_fcol [] (lit "<f1>") FSubquery)]
    [Scope (lit "<f1>") [mk_field [] [cd_ "tasks" "id"; cd_ "t" "user_id"]] [] [mk_table (lit "t") tasks false] []]
    [mk_table tasks users false] [].
Theorem sql_visibility_refuted_capture :
  sql_table [[(lit "t", tasks)]; [(tasks, users)]] tasks = Some users /\
  forall ord, is_order ord -> exists rf, table_fields ord (schema_map ex_schemas) [] capture_scope = Ok rf /\
    (exists ty, recorded rf tasks (lit "id") ty) /\ ~ exists ty, recorded rf users (lit "id") ty.
Proof.
  split; [reflexivity|]. intros ord Ho.
  assert (H1 : forall p (x : gostring), ord p [x] = [x]).
  { intros p x. apply Permutation_length_1_inv, Permutation_sym, Ho. }
  assert (H0 : forall p, ord p [] = []).
  { intros p. apply Permutation_nil, Permutation_sym, Ho. }
  exists [(tasks, [(lit "id", FCondition); (lit "user_id", FCondition)])]. split.
  - vm_compute. rewrite ?H0, ?H1. vm_compute. reflexivity.
  - split.
    + exists FCondition. eexists. split; [vm_compute; reflexivity|]. simpl. auto.
    + intros (ty & l & Hl & _). vm_compute in Hl. discriminate.
Qed.
Print Assumptions sql_visibility_refuted_capture.

(** A column of the statement two levels up is rejected although SQL allows it. *)
Definition two_level_scope : scope :=
  Scope [] [fld (mk_fcol [] (lit "<f1>") FSubquery)]
    [Scope (lit "<f1>") [fld (mk_fcol [] (lit "<f2>") FSubquery)]
       [Scope (lit "<f2>") [fld (cd_ "u" "id")] [] [mk_table (lit "x") tasks false] []]
       [mk_table (lit "t") tasks false] []]
    [mk_table (lit "u") users false] [].
Theorem sql_visibility_refuted_two_levels :
  sql_table [[(lit "x", tasks)]; [(lit "t", tasks)]; [(lit "u", users)]] (lit "u") = Some users /\
  forall ord, is_order ord -> table_fields ord (schema_map ex_schemas) [] two_level_scope = Err (lit ": no table found: u").
Proof. split; [reflexivity|]. intros ord Ho. vm_compute. reflexivity. Qed.
Print Assumptions sql_visibility_refuted_two_levels.

(** ** C18 *)
Theorem build_never_crashes : forall ord ordf srt schemas scs, Forall listed scs -> build ord ordf srt schemas scs <> Panic.
Proof. exact build_no_panic. Qed.
Example build_never_crashes_ex : Forall listed [ex_scope; ex_nested].
Proof. repeat constructor; simpl; auto. Qed.
Print Assumptions build_never_crashes.

(** Without the condition: a derived table whose entry in the table list is missing. *)
Theorem build_never_crashes_refuted : exists schemas scs, forall ord ordf srt,
    build ord ordf srt schemas scs = Panic.
Proof.
  exists ex_schemas, [Scope [] [] [] [mk_table [] users false] [Scope (lit "<s1>") [] [] [] []]].
  intros. vm_compute. reflexivity.
Qed.
Print Assumptions build_never_crashes_refuted.
