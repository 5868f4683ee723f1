From Coq Require Import String List NArith Bool Lia Arith Permutation.
From Verif Require Import Base IndexText IndexBuild IndexBuildSpec IndexBuildProofs TableFields TableFieldsSpec.
Import ListNotations.

Lemma str_in_iff : forall x l, str_in x l = true <-> In x l.
Proof.
  intros. unfold str_in. rewrite existsb_exists. split.
  - intros (y & Hy & E). apply seqb_eq in E. now subst.
  - intros H. exists x. split; auto. apply seqb_refl.
Qed.
Lemma str_in_false : forall x l, str_in x l = false <-> ~ In x l.
Proof. intros. rewrite <- str_in_iff. destruct (str_in x l); split; congruence. Qed.

(** ** Maps *)
Lemma mget_fold_mset : forall {A B} (key : B -> gostring) (val : B -> A) l m k,
    mget (fold_left (fun m b => mset m (key b) (val b)) l m) k =
    match find (fun b => seqb (key b) k) (rev l) with Some b => Some (val b) | None => mget m k end.
Proof.
  intros A B key val l. induction l as [|b l IH] using rev_ind; intros m k; simpl; auto.
  rewrite fold_left_app, rev_app_distr. simpl. rewrite mget_mset, seqb_sym.
  destruct (seqb (key b) k); auto.
Qed.
Lemma keys_fold_mset_NoDup : forall {A B} (key : B -> gostring) (val : B -> A) l m,
    NoDup (keys m) -> NoDup (keys (fold_left (fun m b => mset m (key b) (val b)) l m)).
Proof.
  induction l as [|b l IH]; simpl; intros m H; auto. apply IH. now apply keys_mset_NoDup.
Qed.
Lemma last_such_find : forall p l, last_such p l = find p (rev l).
Proof.
  intros p l. induction l as [|t l IH]; simpl; auto. rewrite IH.
  generalize (rev l). intros r. induction r as [|x r IHr]; simpl; [destruct (p t); auto|].
  destruct (p x); auto.
Qed.
Lemma find_ext : forall {A} (p q : A -> bool) l, (forall x, p x = q x) -> find p l = find q l.
Proof. induction l; simpl; intros H; auto. rewrite H. destruct (q a); auto. Qed.

Lemma mget_find : forall {A} (m : smap A) k, mget m k = match find (fun e => seqb (fst e) k) m with Some e => Some (snd e) | None => None end.
Proof.
  induction m as [|[k0 v0] m IH]; simpl; intros k; auto. rewrite (seqb_sym k k0). destruct (seqb k0 k); simpl; auto.
Qed.
Lemma find_rev_NoDup : forall {A} (m : smap A) k, NoDup (keys m) ->
    find (fun e => seqb (fst e) k) (rev m) = find (fun e => seqb (fst e) k) m.
Proof.
  induction m as [|[k0 v0] m IH]; simpl; intros k H; auto.
  inversion H; subst. 
  assert (HA : forall l (x : gostring * A), find (fun e => seqb (fst e) k) (l ++ [x]) =
     match find (fun e => seqb (fst e) k) l with Some y => Some y | None => if seqb (fst x) k then Some x else None end).
  { induction l as [|y l IHl]; intros x; simpl; auto. destruct (seqb (fst y) k); auto. }
  rewrite HA, IH by auto. simpl. destruct (seqb_spec k0 k) as [->|E].
  - destruct (find (fun e => seqb (fst e) k) m) as [e|] eqn:EF; auto.
    apply find_some in EF. destruct EF as [HI E]. apply seqb_eq in E. elim H2.
    unfold keys. apply in_map_iff. exists e; auto.
  - destruct (find (fun e => seqb (fst e) k) m); auto.
Qed.
Lemma mget_assign : forall {A} (a b : smap A) k, NoDup (keys b) ->
    mget (assign a b) k = match mget b k with Some v => Some v | None => mget a k end.
Proof.
  intros. unfold assign. rewrite (mget_fold_mset fst snd), find_rev_NoDup, (mget_find b) by auto.
  destruct (find _ b); auto.
Qed.

(** ** Iteration *)
Lemma entries_In : forall {A} ord path (m : smap A) k v, is_order ord ->
    (In (k, v) (entries ord path m) <-> mget m k = Some v).
Proof.
  intros A ord path m k v Ho. unfold entries. rewrite in_flat_map. split.
  - intros (x & Hx & H). destruct (mget m x) eqn:E; [|destruct H]. destruct H as [H|[]]. inversion H; subst. auto.
  - intros H. exists k. split.
    + apply (Permutation_in _ (Permutation_sym (Ho path (keys m)))).
      destruct (mget m k) eqn:E; [|discriminate]. apply mget_In in E. unfold keys. apply in_map_iff. exists (k, a); auto.
    + rewrite H. now left.
Qed.
Lemma entries_keys : forall {A} ord path (m : smap A), is_order ord -> NoDup (keys m) ->
    NoDup (map fst (entries ord path m)).
Proof.
  intros A ord path m Ho HN. unfold entries.
  assert (HP := Permutation_NoDup (Permutation_sym (Ho path (keys m))) HN).
  induction (ord path (keys m)) as [|k l IH]; simpl; [constructor|]. inversion HP; subst.
  rewrite map_app. destruct (mget m k); simpl; auto. constructor; auto.
  intros HI. apply H1. apply in_map_iff in HI. destruct HI as ((x & v) & E & HI). simpl in E. subst.
  apply in_flat_map in HI. destruct HI as (y & Hy & HI). destruct (mget m y); [|destruct HI].
  destruct HI as [HI|[]]. inversion HI; subst. auto.
Qed.

(** ** Denotations *)
Definition den (cols : list ocol) (f : rel) : Prop := forall n, find_col n cols = f n.
Definition den_opt (a : option (list ocol)) (b : option rel) : Prop :=
  match a, b with Some cols, Some f => den cols f | None, None => True | _, _ => False end.
Definition denE (m : out_cols) (E : env) : Prop := NoDup (keys m) /\ forall k, den_opt (mget m k) (E k).
Record denI (i : info) (e : senv) : Prop := {
  di_int : denE (i_int i) (s_int e);
  di_ext : denE (i_ext i) (s_ext e);
  di_as : forall k, mget (i_as i) k = s_as e k;
  di_asN : NoDup (keys (i_as i));
  di_sq : forall k, In k (i_sq i) <-> s_sq e k }.

Lemma denE_Some : forall m E k cols, denE m E -> mget m k = Some cols -> exists f, E k = Some f /\ den cols f.
Proof.
  intros m E k cols [_ H] Hk. specialize (H k). rewrite Hk in H. simpl in H. destruct (E k) as [f|]; [|tauto]. eauto.
Qed.
Lemma denE_Some' : forall m E k f, denE m E -> E k = Some f -> exists cols, mget m k = Some cols /\ den cols f.
Proof.
  intros m E k f [_ H] Hk. specialize (H k). rewrite Hk in H. destruct (mget m k); simpl in H; [|tauto]. eauto.
Qed.
Lemma denE_None : forall m E k, denE m E -> (mget m k = None <-> E k = None).
Proof. intros m E k [_ H]. specialize (H k). destruct (mget m k), (E k); simpl in H; split; intros; try tauto; congruence. Qed.

Lemma find_in_tables_Some : forall n l r, find_in_tables n l = Some r -> exists e, In e l /\ find_col n (snd e) = Some r.
Proof.
  induction l as [|e l IH]; simpl; intros r H; [discriminate|].
  destruct (find_col n (snd e)) eqn:E.
  - inversion H; subst. eauto.
  - destruct (IH _ H) as (e' & ? & ?). eauto.
Qed.
Lemma find_in_tables_None : forall n l, find_in_tables n l = None <-> forall e, In e l -> find_col n (snd e) = None.
Proof.
  induction l as [|e l IH]; simpl; [split; auto; tauto|].
  destruct (find_col n (snd e)) eqn:E.
  - split; [discriminate|]. intros H. specialize (H e (or_introl eq_refl)); congruence.
  - rewrite IH. split; intros H; auto. intros e' [<-|H']; auto.
Qed.

Lemma find_some_table : forall ord path m E n r, is_order ord -> denE m E ->
    find_in_tables n (entries ord path m) = Some r -> some_table E n r.
Proof.
  intros ord path m E n r Ho HD H. apply find_in_tables_Some in H. destruct H as ([k cols] & HI & HF).
  apply entries_In in HI; auto. destruct (denE_Some _ _ _ _ HD HI) as (f & Hf & Hd).
  exists k, f. split; auto. now rewrite <- Hd.
Qed.
Lemma find_no_table : forall ord path m E n, is_order ord -> denE m E ->
    (find_in_tables n (entries ord path m) = None <-> no_table_has E n).
Proof.
  intros ord path m E n Ho HD. rewrite find_in_tables_None. split.
  - intros H k f Hf. destruct (denE_Some' _ _ _ _ HD Hf) as (cols & Hc & Hd).
    rewrite <- Hd. apply (H (k, cols)). now apply entries_In.
  - intros H [k cols] HI. apply entries_In in HI; auto. destruct (denE_Some _ _ _ _ HD HI) as (f & Hf & Hd).
    simpl. rewrite Hd. eauto.
Qed.
Lemma some_no : forall E n r, some_table E n r -> no_table_has E n -> False.
Proof. intros E n r (k & f & H1 & H2) H. rewrite (H k f H1) in H2. discriminate. Qed.

Section Res.
  Context (ord : order gostring) (Hord : is_order ord).

  Lemma column_infos_sound : forall path i e n r, denI i e -> column_infos ord path i n = Ok r -> unqualified e n r.
  Proof.
    intros path i e n r HD H. unfold column_infos in H. destruct HD.
    destruct (find_in_tables n (entries ord (path ++ [0]) (i_int i))) eqn:E1.
    - inversion H; subst. left. eapply find_some_table; eauto.
    - right. split; [eapply find_no_table; eauto|].
      destruct (find_in_tables n (entries ord (path ++ [1]) (i_ext i))) eqn:E2.
      + inversion H; subst. left. eapply find_some_table; eauto.
      + right. split; [eapply find_no_table; eauto|].
        destruct (str_in n (i_sq i)) eqn:E3; inversion H. split; auto. apply di_sq0. now apply str_in_iff.
  Qed.
  Lemma column_infos_complete : forall path i e n r, denI i e -> unqualified e n r ->
      exists r', column_infos ord path i n = Ok r' /\ unqualified e n r'.
  Proof.
    intros path i e n r HD H.
    destruct (column_infos ord path i n) as [r'|m|] eqn:E.
    - exists r'. split; auto. eapply column_infos_sound; eauto.
    - exfalso. unfold column_infos in E. destruct HD.
      destruct (find_in_tables n (entries ord (path ++ [0]) (i_int i))) eqn:E1; [discriminate|].
      destruct (find_in_tables n (entries ord (path ++ [1]) (i_ext i))) eqn:E2; [discriminate|].
      destruct (str_in n (i_sq i)) eqn:E3; [discriminate|].
      apply (find_no_table _ _ _ (s_int e)) in E1; auto. apply (find_no_table _ _ _ (s_ext e)) in E2; auto.
      destruct H as [H|[_ [H|(_ & H & _)]]].
      + eapply some_no; eauto.
      + eapply some_no; eauto.
      + apply di_sq0 in H. apply str_in_false in E3. auto.
    - unfold column_infos in E. repeat destruct (find_in_tables _ _); try discriminate.
      destruct (str_in _ _); discriminate.
  Qed.

  Lemma table_cols_sound : forall i e a cols, denI i e -> table_cols i a = Ok cols ->
      exists f, named e a = Some f /\ den cols f.
  Proof.
    intros i e a cols HD H. destruct HD. unfold table_cols in H. unfold named. rewrite <- di_as0.
    destruct (mget (i_as i) a) as [n|]; [|discriminate].
    destruct (mget (i_int i) n) eqn:E1.
    - inversion H; subst. destruct (denE_Some _ _ _ _ di_int0 E1) as (f & -> & Hd). eauto.
    - apply (denE_None _ _ _ di_int0) in E1. rewrite E1.
      destruct (mget (i_ext i) n) eqn:E2; inversion H; subst.
      destruct (denE_Some _ _ _ _ di_ext0 E2) as (f & -> & Hd). eauto.
  Qed.
  Lemma table_cols_complete : forall i e a f, denI i e -> named e a = Some f ->
      exists cols, table_cols i a = Ok cols /\ den cols f.
  Proof.
    intros i e a f HD H. destruct HD. unfold named in H. unfold table_cols. rewrite di_as0.
    destruct (s_as e a) as [n|]; [|discriminate].
    destruct (s_int e n) eqn:E1.
    - inversion H; subst. destruct (denE_Some' _ _ _ _ di_int0 E1) as (c & -> & Hd). eauto.
    - apply (denE_None _ _ _ di_int0) in E1. rewrite E1.
      destruct (denE_Some' _ _ _ _ di_ext0 H) as (c & -> & Hd). eauto.
  Qed.

  Lemma column_refs_sound : forall path i e c r, denI i e -> column_refs ord path i c = Ok r -> col_means True e c r.
  Proof.
    intros path i e c r HD H. unfold column_refs in H. unfold col_means.
    assert (HG : match fc_table c with
                 | [] => column_infos ord path i (fc_name c)
                 | _ => do cols <- table_cols i (fc_table c);
                        match find_col (fc_name c) cols with Some r => Ok r | None => Err (no_column (fc_name c)) end
                 end = Ok r ->
                 match fc_table c with
                 | [] => unqualified e (fc_name c) r /\ (True \/ (forall r', unqualified e (fc_name c) r' -> r' = r))
                 | a => exists f, named e a = Some f /\ f (fc_name c) = Some r
                 end).
    { clear H. intros H. destruct (fc_table c) as [|x a] eqn:ET.
      - split; auto. eapply column_infos_sound; eauto.
      - destruct (table_cols i (x :: a)) as [cols|m|] eqn:EC; simpl in H; try discriminate.
        destruct (table_cols_sound _ _ _ _ HD EC) as (f & Hf & Hd). exists f. split; auto.
        destruct (find_col (fc_name c) cols) eqn:EF; inversion H; subst. now rewrite <- Hd. }
    destruct (fc_type c); try (apply HG; exact H); inversion H; reflexivity.
  Qed.
  Lemma column_refs_complete : forall path i e c r, denI i e -> col_means False e c r -> column_refs ord path i c = Ok r.
  Proof.
    intros path i e c r HD H. unfold col_means in H. unfold column_refs.
    assert (HG : match fc_table c with
                 | [] => unqualified e (fc_name c) r /\ (False \/ (forall r', unqualified e (fc_name c) r' -> r' = r))
                 | a => exists f, named e a = Some f /\ f (fc_name c) = Some r
                 end ->
                 match fc_table c with
                 | [] => column_infos ord path i (fc_name c)
                 | _ => do cols <- table_cols i (fc_table c);
                        match find_col (fc_name c) cols with Some r => Ok r | None => Err (no_column (fc_name c)) end
                 end = Ok r).
    { clear H. intros H. destruct (fc_table c) as [|x a] eqn:ET.
      - destruct H as [H1 [[]|H2]]. destruct (column_infos_complete path i e _ _ HD H1) as (r' & -> & H3).
        now rewrite (H2 r' H3).
      - destruct H as (f & Hf & Hn). destruct (table_cols_complete _ _ _ _ HD Hf) as (cols & -> & Hd).
        simpl. now rewrite Hd, Hn. }
    destruct (fc_type c); auto; now subst.
  Qed.
End Res.

(** ** Recording uses *)
Definition ty_of (rf : tab_fields) (t c : gostring) : option field_type :=
  match mget rf t with Some l => mget l c | None => None end.
Definition merge (o : option field_type) (ty : field_type) : field_type :=
  match o with
  | Some ty0 => if (is_reference ty0 && is_condition ty)%bool then ty else ty0
  | None => ty
  end.
Lemma mget_add_to_cols : forall cols c ty c',
    mget (add_to_cols cols (c, ty)) c' = if seqb c' c then Some (merge (mget cols c) ty) else mget cols c'.
Proof.
  induction cols as [|[n0 ty0] cols IH]; intros c ty c'; simpl.
  - destruct (seqb c' c); auto.
  - unfold if_name, if_type. simpl. rewrite (seqb_sym n0 c). destruct (seqb_spec c n0) as [E|E]; simpl.
    + subst n0. destruct (is_reference ty0 && is_condition ty)%bool; simpl; destruct (seqb c' c); auto.
    + rewrite IH. destruct (seqb_spec c' n0) as [->|E2]; auto.
      destruct (seqb_spec n0 c); [congruence|auto].
Qed.
Lemma add_to_cols_names : forall cols c, 
    map fst (add_to_cols cols c) = if str_in (fst c) (map fst cols) then map fst cols else map fst cols ++ [fst c].
Proof.
  induction cols as [|x cols IH]; intros c; simpl; auto.
  unfold if_name. rewrite (seqb_sym (fst x)). destruct (seqb_spec (fst c) (fst x)) as [E|E]; simpl.
  - destruct (_ && _)%bool; simpl; congruence.
  - rewrite IH. unfold str_in. simpl. destruct (existsb (seqb (fst c)) (map fst cols)); auto.
Qed.
Lemma ty_of_add_field : forall rf t c ty t' c',
    ty_of (add_field rf t (c, ty)) t' c' =
    if (seqb t' t && seqb c' c)%bool then Some (merge (ty_of rf t c) ty) else ty_of rf t' c'.
Proof.
  intros. unfold ty_of, add_field. destruct (mget rf t) as [cols|] eqn:E.
  - rewrite mget_mset. destruct (seqb_spec t' t) as [->|H]; simpl; auto.
    rewrite mget_add_to_cols. rewrite E. auto.
  - rewrite mget_mset. destruct (seqb_spec t' t) as [->|H]; simpl; auto. rewrite E.
    destruct (seqb c' c); auto.
Qed.

Definition wf_rf (rf : tab_fields) : Prop :=
  NoDup (keys rf) /\ (forall t l, mget rf t = Some l -> l <> [] /\ NoDup (map fst l)).
Lemma wf_add_field : forall rf t c, wf_rf rf -> wf_rf (add_field rf t c).
Proof.
  intros rf t c [H1 H2]. unfold add_field. destruct (mget rf t) as [cols|] eqn:E; split.
  - now apply keys_mset_NoDup.
  - intros t' l. rewrite mget_mset. destruct (seqb t' t); [|apply H2]. intros HE; inversion HE; subst.
    destruct (H2 _ _ E) as [H3 H4]. split.
    + destruct cols; simpl; [congruence|]. destruct (seqb _ _); congruence.
    + rewrite add_to_cols_names. destruct (str_in (fst c) (map fst cols)) eqn:ES; auto.
      apply NoDup_snoc; auto. now apply str_in_false.
  - now apply keys_mset_NoDup.
  - intros t' l. rewrite mget_mset. destruct (seqb t' t); [|apply H2]. intros HE; inversion HE; subst.
    split; [congruence|]. repeat constructor. auto.
Qed.
Lemma recorded_ty : forall rf t c ty, wf_rf rf -> (recorded rf t c ty <-> ty_of rf t c = Some ty).
Proof.
  intros rf t c ty [H1 H2]. unfold recorded, ty_of. split.
  - intros (l & Hl & HI). rewrite Hl. apply In_mget; auto. apply (H2 _ _ Hl).
  - destruct (mget rf t) as [l|] eqn:E; [|discriminate]. intros H. exists l. split; auto. now apply mget_In.
Qed.

(** The same in terms of [ty_of]. *)
Definition ref_cond (us : list use) : Prop := forall t c ty, In (t, c, ty) us -> ty = FReference \/ ty = FCondition.
Lemma records_iff : forall rf us, records rf us <->
    wf_rf rf /\ (forall t c, ty_of rf t c <> None <-> exists ty, In (t, c, ty) us) /\
    (forall t c ty, ty_of rf t c = Some ty -> In (t, c, ty) us) /\
    (ref_cond us -> forall t c, ty_of rf t c = Some FCondition <-> In (t, c, FCondition) us).
Proof.
  intros rf us. unfold records. split.
  - intros (H1 & H2 & H3 & H4 & H5). assert (HW : wf_rf rf) by (split; auto).
    split; auto. split; [|split].
    + intros t c. rewrite <- H3. split.
      * destruct (ty_of rf t c) eqn:E; [|congruence]. intros _. exists f. now apply recorded_ty.
      * intros [ty H]. apply recorded_ty in H; auto. congruence.
    + intros t c ty H. apply H4. now apply recorded_ty.
    + intros HR t c. rewrite <- H5, recorded_ty by auto. tauto.
  - intros (HW & H3 & H4 & H5). split; [apply HW|]. split; [apply HW|]. split; [|split].
    + intros t c. rewrite <- H3. split.
      * intros [ty H]. apply recorded_ty in H; auto. congruence.
      * destruct (ty_of rf t c) eqn:E; [|congruence]. intros _. exists f. now apply recorded_ty.
    + intros t c ty H. apply H4. now apply recorded_ty in H.
    + intros HR t c. rewrite recorded_ty, H5 by auto. tauto.
Qed.
Lemma records_nil : records [] [].
Proof.
  apply records_iff. split; [split; [constructor|discriminate]|]. split; [|split].
  - intros. unfold ty_of. simpl. split; [congruence|]. intros [? []].
  - intros t c ty H. discriminate.
  - intros _ t c. unfold ty_of. simpl. split; [discriminate|tauto].
Qed.
Lemma records_add : forall rf us t c ty, records rf us -> records (add_field rf t (c, ty)) (us ++ [(t, c, ty)]).
Proof.
  intros rf us t c ty H. apply records_iff in H. destruct H as (HW & H3 & H4 & H5). apply records_iff.
  split; [now apply wf_add_field|].
  assert (HS : forall t' c' ty', In (t', c', ty') (us ++ [(t, c, ty)]) <-> In (t', c', ty') us \/ (t' = t /\ c' = c /\ ty' = ty)).
  { intros. rewrite in_app_iff. simpl. split; intros [HA|HA]; auto.
    - destruct HA as [HA|[]]. inversion HA; subst. auto.
    - destruct HA as (-> & -> & ->). auto. }
  split; [|split].
  - intros t' c'. rewrite ty_of_add_field. destruct (seqb_spec t' t) as [->|ET], (seqb_spec c' c) as [->|EC]; simpl.
    + split; [|congruence]. intros _. exists ty. apply HS. auto.
    + rewrite H3. split; intros [ty' HI]; exists ty'; [apply HS; auto|]. apply HS in HI. destruct HI as [HI|(_ & HI & _)]; tauto.
    + rewrite H3. split; intros [ty' HI]; exists ty'; [apply HS; auto|]. apply HS in HI. destruct HI as [HI|(HI & _ & _)]; tauto.
    + rewrite H3. split; intros [ty' HI]; exists ty'; [apply HS; auto|]. apply HS in HI. destruct HI as [HI|(HI & _ & _)]; tauto.
  - intros t' c' ty'. rewrite ty_of_add_field, HS. destruct (seqb_spec t' t) as [->|ET], (seqb_spec c' c) as [->|EC]; simpl; auto.
    intros HE. inversion HE as [HE']. unfold merge. destruct (ty_of rf t c) as [ty0|] eqn:E0; [|tauto].
    destruct (is_reference ty0 && is_condition ty)%bool; [tauto|]. left. auto.
  - intros HR t' c'. assert (HR' : ref_cond us) by (intros a b d HI; eapply HR; apply HS; eauto).
    assert (Hty : ty = FReference \/ ty = FCondition) by (apply (HR t c); apply HS; auto).
    rewrite ty_of_add_field, HS.
    destruct (seqb_spec t' t) as [->|ET], (seqb_spec c' c) as [->|EC]; simpl; try (rewrite H5 by auto; tauto).
    rewrite <- H5 by auto. unfold merge. destruct (ty_of rf t c) as [ty0|] eqn:E0.
    + assert (H0 : ty0 = FReference \/ ty0 = FCondition) by (apply (HR' t c); auto).
      destruct Hty as [-> | ->], H0 as [-> | ->]; simpl; split; intros HX; try discriminate; auto;
        destruct HX as [HX|(_ & _ & HX)]; congruence.
    + split; intros HX; [inversion HX; auto|]. destruct HX as [HX|(_ & _ & HX)]; congruence.
Qed.
Definition add_use (rf : tab_fields) (u : use) : tab_fields := add_field rf (fst (fst u)) (snd (fst u), snd u).
Lemma records_fold : forall l rf us, records rf us -> records (fold_left add_use l rf) (us ++ l).
Proof.
  induction l as [|[[t c] ty] l IH]; intros rf us H; simpl.
  - now rewrite app_nil_r.
  - replace (us ++ (t, c, ty) :: l) with ((us ++ [(t, c, ty)]) ++ l) by (now rewrite <- app_assoc).
    apply IH. unfold add_use. simpl. now apply records_add.
Qed.
Definition uses_of_map (l : list (gostring * list ifield)) : list use :=
  flat_map (fun e => map (fun c => (fst e, fst c, snd c)) (snd e)) l.
Lemma add_fields_fold : forall ord path rf new,
    add_fields ord path rf new = fold_left add_use (uses_of_map (entries ord path new)) rf.
Proof.
  intros. unfold add_fields, uses_of_map. generalize (entries ord path new). intros l. revert rf.
  induction l as [|[t cols] l IH]; intros rf; simpl; auto. rewrite fold_left_app, IH. f_equal.
  clear. revert rf. induction cols as [|[c ty] cols IH]; intros rf; simpl; auto.
Qed.
Lemma records_add_fields : forall ord path rf us new us', is_order ord ->
    records rf us -> records new us' -> records (add_fields ord path rf new) (us ++ us').
Proof.
  intros ord path rf us new us' Ho H1 H2. rewrite add_fields_fold.
  pose proof (records_fold (uses_of_map (entries ord path new)) rf us H1) as H.
  assert (HL : forall t c ty, In (t, c, ty) (uses_of_map (entries ord path new)) <-> recorded new t c ty).
  { intros t c ty. unfold uses_of_map, recorded. rewrite in_flat_map. split.
    - intros ([t' l] & HI & HU). apply entries_In in HI; auto. apply in_map_iff in HU.
      destruct HU as ([c' ty'] & E & HU). simpl in E. inversion E; subst. eauto.
    - intros (l & Hl & HI). exists (t, l). split; [now apply entries_In|]. apply in_map_iff. exists (c, ty). auto. }
  destruct H2 as (_ & _ & N3 & N4 & N5). destruct H as (P1 & P2 & P3 & P4 & P5).
  split; auto. split; auto. split; [|split].
  - intros t c. rewrite P3. split; intros [ty HI].
    + apply in_app_or in HI. destruct HI as [HI|HI].
      * exists ty. apply in_or_app; auto.
      * apply HL in HI. exists ty. apply in_or_app. right. auto.
    + apply in_app_or in HI. destruct HI as [HI|HI].
      * exists ty. apply in_or_app; auto.
      * destruct (proj2 (N3 t c)) as [ty' HR]; [eauto|]. exists ty'. apply in_or_app. right. now apply HL.
  - intros t c ty HR. apply P4 in HR. apply in_app_or in HR. apply in_or_app. destruct HR as [HR|HR]; auto.
    right. apply N4. now apply HL.
  - intros HR t c. rewrite P5.
    + rewrite !in_app_iff, HL, N5; [tauto|]. intros t' c' ty' HI. eapply HR. apply in_or_app; eauto.
    + intros t' c' ty' HI. apply in_app_or in HI. destruct HI as [HI|HI].
      * eapply HR. apply in_or_app; eauto.
      * apply HL, N4 in HI. eapply HR. apply in_or_app; eauto.
Qed.

(** ** The start of a scope *)
Lemma find_col_app : forall n a b, find_col n (a ++ b) = match find_col n a with Some r => Some r | None => find_col n b end.
Proof. induction a as [|c a IH]; intros b; simpl; auto. destruct (seqb n (oc_name c)); auto. Qed.
Lemma find_col_base : forall t n cols, find_col n (map (fun c => mk_ocol c [(t, c)]) cols) = if str_in n cols then Some [(t, n)] else None.
Proof.
  intros t n cols. induction cols as [|c cols IH]; simpl; auto.
  unfold str_in in *. simpl. destruct (seqb_spec n c) as [->|E]; simpl; auto.
Qed.
Lemma append_cols : forall t cols (res : out_cols), 
    let res' := fold_left (fun res c => append_at res t (mk_ocol c [(t, c)])) cols res in
    (NoDup (keys res) -> NoDup (keys res')) /\
    forall k, mget res' k = if seqb k t then
                match cols with
                | [] => mget res k
                | _ => Some (match mget res t with Some l => l | None => [] end ++ map (fun c => mk_ocol c [(t, c)]) cols)
                end
              else mget res k.
Proof.
  induction cols as [|c cols IH]; intros res; simpl.
  - split; auto. intros k. destruct (seqb k t); auto.
  - destruct (IH (append_at res t (mk_ocol c [(t, c)]))) as [H1 H2]. split.
    + intros H. apply H1. unfold append_at. now apply keys_mset_NoDup.
    + intros k. rewrite H2. unfold append_at. rewrite !mget_mset.
      destruct (seqb_spec k t) as [->|E]; auto. rewrite seqb_refl.
      destruct cols; destruct (mget res t); simpl; auto. rewrite <- app_assoc. auto.
Qed.
Lemma referencing_columns_den : forall db tables, denE (referencing_columns db tables) (base db tables).
Proof.
  intros db tables. unfold referencing_columns.
  induction tables as [|t tables IH] using rev_ind.
  - split; [constructor|]. intros k. simpl. auto.
  - rewrite fold_left_app. simpl. match type of IH with denE ?x _ => set (res := x) in * end.
    assert (HB : forall k, base db (tables ++ [t]) k =
       if seqb k (t_name t) then
         match mget db k with
         | Some ts => match ts_cols ts with [] => None | cols => Some (fun c => if str_in c cols then Some [(k, c)] else None) end
         | None => None
         end
       else base db tables k).
    { intros k. unfold base. rewrite existsb_app. simpl. rewrite orb_false_r, (seqb_sym k).
      destruct (seqb_spec (t_name t) k) as [E|E]; rewrite ?orb_true_r, ?orb_false_r; auto. }
    destruct (mget db (t_name t)) as [ts|] eqn:ED.
    + destruct (append_cols (t_name t) (ts_cols ts) res) as [H1 H2]. split; [apply H1, IH|].
      intros k. rewrite H2, HB. destruct IH as [_ IH]. specialize (IH k).
      destruct (seqb_spec k (t_name t)) as [->|E]; auto. rewrite ED.
      unfold base in IH. rewrite ED in IH.
      destruct (ts_cols ts) as [|c0 cols] eqn:EC.
      * destruct (mget res (t_name t)); simpl; auto. destruct (existsb _ tables); auto.
      * rewrite <- EC in *. simpl. intros n. rewrite find_col_app, find_col_base.
        destruct (mget res (t_name t)) as [l|]; auto.
        destruct (existsb (fun t0 => seqb (t_name t0) (t_name t)) tables); simpl in IH; [|tauto].
        rewrite (IH n). destruct (str_in n (ts_cols ts)); auto.
    + destruct IH as [IH1 IH]. split; auto. intros k. rewrite HB. specialize (IH k).
      destruct (seqb_spec k (t_name t)) as [->|E]; auto. rewrite ED. unfold base in IH. rewrite ED in IH.
      destruct (existsb _ tables); auto.
Qed.

Lemma find_rev_In : forall {A} (p : A -> bool) l x, find p (rev l) = Some x -> In x l /\ p x = true.
Proof. intros A p l x H. apply find_some in H. rewrite <- in_rev in H. auto. Qed.
Lemma start_den : forall db tables ext E, denE ext E -> denI (new_info db tables ext) (start db tables E).
Proof.
  intros db tables ext E HE. constructor; simpl; auto.
  - apply referencing_columns_den.
  - intros k. rewrite mget_fold_mset, last_such_find.
    destruct (find _ (rev tables)); auto.
    rewrite (mget_fold_mset (fun k => k) (fun k => k)).
    destruct (find (fun b => seqb b k) (rev (keys ext))) as [k'|] eqn:EF.
    + apply find_rev_In in EF. destruct EF as [HI EF]. apply seqb_eq in EF. subst k'.
      destruct (E k) eqn:EE; auto. apply (denE_None _ _ _ HE) in EE. apply mget_None in EE. tauto.
    + destruct (E k) eqn:EE; auto. destruct (denE_Some' _ _ _ _ HE EE) as (cols & Hc & _).
      apply mget_In in Hc. assert (HI : In k (rev (keys ext))).
      { rewrite <- in_rev. unfold keys. apply in_map_iff. exists (k, cols); auto. }
      apply (find_none _ _ EF) in HI. rewrite seqb_refl in HI. discriminate.
  - apply keys_fold_mset_NoDup. apply (keys_fold_mset_NoDup (fun k => k) (fun k => k)). constructor.
  - intros k. pose proof (denE_None _ _ k HE) as HN. rewrite mget_None in HN.
    destruct (E k) eqn:EE.
    + split; [congruence|]. intros _. destruct (in_dec runes_eq_dec k (keys ext)); auto.
      apply HN in n. discriminate.
    + split; [|congruence]. intros HI. assert (~ In k (keys ext)) by tauto. tauto.
Qed.
Lemma visible_get : forall i k, NoDup (keys (i_as i)) ->
    mget (visible i) k = match mget (i_as i) k with Some n => mget (i_int i) n | None => None end /\ NoDup (keys (visible i)).
Proof.
  intros i k HN. unfold visible.
  assert (HG : forall l m, NoDup (map fst l) -> NoDup (keys m) -> (forall x, In x (map fst l) -> mget m x = None) ->
     let v := fold_left (fun res e => match mget (i_int i) (snd e) with Some cols => mset res (fst e) cols | None => res end) l m in
     NoDup (keys v) /\
     mget v k = match mget l k with Some n => mget (i_int i) n | None => mget m k end).
  { induction l as [|[a n] l IH]; intros m HL HM HD; simpl.
    - auto.
    - simpl in HL. inversion HL as [|? ? Hni HL']; subst.
      specialize (IH (match mget (i_int i) n with Some cols => mset m a cols | None => m end) HL').
      destruct IH as [I1 I2].
      + destruct (mget (i_int i) n); auto. now apply keys_mset_NoDup.
      + intros x Hx. destruct (mget (i_int i) n); [|apply HD; simpl; auto]. rewrite mget_mset.
        destruct (seqb_spec x a) as [->|]; [tauto|]. apply HD. simpl; auto.
      + simpl in *. split; auto. rewrite I2. destruct (seqb_spec k a) as [->|E].
        * destruct (mget l a) eqn:EL. { apply mget_In in EL. elim Hni. apply in_map_iff. exists (a, l0); auto. }
          destruct (mget (i_int i) n) eqn:EN; [apply mget_mset_same|]. apply HD. auto.
        * destruct (mget l k); auto. destruct (mget (i_int i) n); auto. rewrite mget_mset.
          destruct (seqb_spec k a); [congruence|auto]. }
  destruct (HG (i_as i) [] HN (NoDup_nil _) (fun _ _ => eq_refl)) as [H1 H2].
  split; auto.
Qed.
Lemma visible_den : forall i e, denI i e -> denE (visible i) (shown e).
Proof.
  intros i e HD. destruct HD. split; [apply (visible_get i [] di_asN0)|].
  intros k. rewrite (proj1 (visible_get i k di_asN0)). unfold shown. rewrite <- di_as0.
  destruct (mget (i_as i) k) as [n|]; simpl; auto. apply di_int0.
Qed.
Lemma keys_assign_NoDup : forall {A} (a b : smap A), NoDup (keys a) -> NoDup (keys (assign a b)).
Proof. intros. unfold assign. now apply (keys_fold_mset_NoDup fst snd). Qed.
Lemma assign_den : forall a b A B, denE a A -> denE b B -> denE (assign a b) (over A B).
Proof.
  intros a b A B [HA1 HA] [HB1 HB]. split; [now apply keys_assign_NoDup|].
  intros k. rewrite mget_assign by auto. unfold over. specialize (HA k). specialize (HB k).
  destruct (mget b k), (B k); simpl in *; try tauto.
Qed.
Lemma mset_den : forall m E k cols f, denE m E -> den cols f -> denE (mset m k cols) (upd E k f).
Proof.
  intros m E k cols f [H1 H2] Hd. split; [now apply keys_mset_NoDup|]. intros k'. rewrite mget_mset. unfold upd.
  destruct (seqb k' k); simpl; auto.
Qed.
Lemma add_subquery_den : forall ord path i e name as_name cols o new,
    denI i e -> den cols o -> denI (add_subquery ord path i name as_name cols new) (with_sub e name as_name o).
Proof.
  intros ord path i e name as_name cols o new HD Hd. destruct HD. constructor; simpl; auto.
  - now apply mset_den.
  - intros k. rewrite mget_mset. unfold upd. destruct (seqb k as_name); auto.
  - now apply keys_mset_NoDup.
  - intros k. rewrite di_sq0. split; intros [H|H]; auto.
Qed.

(** ** The field list *)
Definition starred_cols (cols : list fcol) (a : gostring) : Prop :=
  exists c, In c cols /\ fc_type c = FStar /\ fc_table c = a.
Lemma fold_add_use : forall r ty rf,
    fold_left (fun rf ci => add_field rf (fst ci) (snd ci, ty)) r rf = fold_left add_use (uses_of ty r) rf.
Proof. induction r as [|[t c] r IH]; intros ty rf; simpl; auto. Qed.

Section Fields.
  Context (ord : order gostring) (Hord : is_order ord).

  Lemma stars_step : forall c stars a,
      In a (match fc_type c with FStar => if str_in (fc_table c) stars then stars else stars ++ [fc_table c] | _ => stars end)
      <-> In a stars \/ (fc_type c = FStar /\ fc_table c = a).
  Proof.
    intros c stars a. destruct (fc_type c); try (split; [auto|intros [H|[H _]]; [auto|discriminate]]).
    destruct (str_in (fc_table c) stars) eqn:E.
    - apply str_in_iff in E. split; auto. intros [H|[_ <-]]; auto.
    - rewrite in_app_iff. simpl. split; intros [H|H]; auto.
      + destruct H as [<-|[]]. auto.
      + destruct H as [_ <-]. auto.
  Qed.
  Lemma stars_step_NoDup : forall c stars, NoDup stars ->
      NoDup (match fc_type c with FStar => if str_in (fc_table c) stars then stars else stars ++ [fc_table c] | _ => stars end).
  Proof.
    intros c stars H. destruct (fc_type c); auto. destruct (str_in (fc_table c) stars) eqn:E; auto.
    apply NoDup_snoc; auto. now apply str_in_false.
  Qed.

  Lemma field_cols_sound : forall cols path k i e rf stars rs rf' stars', denI i e ->
      field_cols ord path k i cols rf stars = Ok (rs, rf', stars') ->
      exists us, cols_mean True e cols rs us /\ rf' = fold_left add_use us rf /\
        forall a, In a stars' <-> In a stars \/ starred_cols cols a.
  Proof.
    induction cols as [|c cols IH]; intros path k i e rf stars rs rf' stars' HD H; simpl in H.
    - inversion H; subst. exists []. split; [constructor|]. split; auto. intros a. split; auto.
      intros [HA|(c & [] & _)]; auto.
    - destruct (column_refs ord (path ++ [k]) i c) as [r|m|] eqn:EC; simpl in H; try discriminate.
      destruct (field_cols ord path (S k) i cols _ _) as [[[rest rf2] stars2]|m|] eqn:EF; simpl in H; try discriminate.
      inversion H; subst. apply (IH _ _ _ e) in EF; auto. destruct EF as (us & HM & -> & HS).
      exists (uses_of (fc_type c) r ++ us). split.
      + constructor; auto. eapply column_refs_sound; eauto.
      + split; [now rewrite fold_left_app, fold_add_use|]. intros a. rewrite HS, stars_step. unfold starred_cols. split.
        * intros [[HA|HA]|(c' & HI & HT)]; auto.
          -- right. exists c. split; [now left|auto].
          -- right. exists c'. split; [now right|auto].
        * intros [HA|(c' & [->|HI] & HT)]; auto. right. eauto.
  Qed.
  Lemma field_cols_complete : forall cols path k i e rf stars rs us, denI i e ->
      cols_mean False e cols rs us ->
      exists stars', field_cols ord path k i cols rf stars = Ok (rs, fold_left add_use us rf, stars') /\
        forall a, In a stars' <-> In a stars \/ starred_cols cols a.
  Proof.
    induction cols as [|c cols IH]; intros path k i e rf stars rs us HD H; inversion H; subst; simpl.
    - exists stars. split; auto. intros a. split; auto. intros [HA|(c & [] & _)]; auto.
    - match goal with HX : col_means _ _ _ _ |- _ => rename HX into HC1 end.
      match goal with HX : cols_mean _ _ _ _ _ |- _ => match type of HX with cols_mean _ _ cols _ _ => rename HX into HC2 end end.
      rewrite (column_refs_complete ord Hord _ _ _ _ _ HD HC1). simpl. rewrite fold_add_use.
      match goal with |- context [field_cols ord path (S k) i cols ?x ?y] =>
        destruct (IH path (S k) i e x y _ _ HD HC2) as (st & -> & HS) end.
      simpl. exists st. rewrite fold_left_app. split; auto. intros a. rewrite HS, stars_step. unfold starred_cols. split.
        * intros [[HA|HA]|(c' & HI & HT)]; auto.
          -- right. exists c. split; [now left|auto].
          -- right. exists c'. split; [now right|auto].
        * intros [HA|(c' & [->|HI] & HT)]; auto. right. eauto.
  Qed.

  Definition as_pair (c : ocol) : gostring * refs := (oc_name c, oc_refs c).
  Lemma fields_loop_sound : forall fields path k i e rf stars outs rf' stars', denI i e ->
      fields_loop ord path k i fields rf stars = Ok (outs, rf', stars') ->
      exists us, fields_mean True e fields (map as_pair outs) us /\ rf' = fold_left add_use us rf /\
        forall a, In a stars' <-> In a stars \/ starred fields a.
  Proof.
    induction fields as [|f fields IH]; intros path k i e rf stars outs rf' stars' HD H; simpl in H.
    - inversion H; subst. exists []. split; [constructor|]. split; auto. intros a. split; auto.
      intros [HA|(f & c & [] & _)]; auto.
    - destruct (field_cols ord (path ++ [k]) 0 i (f_cols f) rf stars) as [[[rs rf1] st1]|m|] eqn:E1; simpl in H; try discriminate.
      destruct (fields_loop ord path (S k) i fields rf1 st1) as [[[os rf2] st2]|m|] eqn:E2; simpl in H; try discriminate.
      inversion H; subst. apply (field_cols_sound _ _ _ _ e) in E1; auto. destruct E1 as (us1 & HM1 & -> & HS1).
      apply (IH _ _ _ e) in E2; auto. destruct E2 as (us2 & HM2 & -> & HS2).
      exists (us1 ++ us2). split; [|split].
      + replace (map as_pair _) with (match field_name f with [] => map as_pair os | n => (n, rs) :: map as_pair os end)
          by (destruct (field_name f); auto).
        econstructor; eauto.
      + now rewrite fold_left_app.
      + intros a. rewrite HS2, HS1. unfold starred, starred_cols. split.
        * intros [[HA|(c & HI & HT)]|(f' & c & HI & HI2 & HT)]; auto.
          -- right. exists f, c. split; [now left|auto].
          -- right. exists f', c. split; [now right|auto].
        * intros [HA|(f' & c & [->|HI] & HI2 & HT)]; auto; [left; right; eauto|right; eauto].
  Qed.
  Lemma fields_loop_complete : forall fields path k i e rf stars outs us, denI i e ->
      fields_mean False e fields outs us ->
      exists outs' stars', fields_loop ord path k i fields rf stars = Ok (outs', fold_left add_use us rf, stars') /\
        map as_pair outs' = outs /\
        forall a, In a stars' <-> In a stars \/ starred fields a.
  Proof.
    induction fields as [|f fields IH]; intros path k i e rf stars outs us HD H; inversion H; subst; simpl.
    - exists [], stars. split; auto. split; auto. intros a. split; auto. intros [HA|(f & c & [] & _)]; auto.
    - match goal with HX : cols_mean _ _ _ _ _ |- _ => rename HX into HC1 end.
      match goal with HX : fields_mean _ _ fields _ _ |- _ => rename HX into HC2 end.
      destruct (field_cols_complete _ (path ++ [k]) 0 i e rf stars _ _ HD HC1) as (st1 & -> & HS1). simpl.
      destruct (IH path (S k) i e (fold_left add_use us0 rf) st1 _ _ HD HC2) as (os & st2 & -> & <- & HS2). simpl.
      exists (match field_name f with [] => os | n => mk_ocol n r :: os end), st2. split; [|split].
      + rewrite fold_left_app. auto.
      + destruct (field_name f); auto.
      + intros a. rewrite HS2, HS1. unfold starred, starred_cols. split.
        * intros [[HA|(c & HI & HT)]|(f' & c & HI & HI2 & HT)]; auto.
          -- right. exists f, c. split; [now left|auto].
          -- right. exists f', c. split; [now right|auto].
        * intros [HA|(f' & c & [->|HI] & HI2 & HT)]; auto; [left; right; eauto|right; eauto].
  Qed.

  (** *** Stars *)
  Lemma find_col_concat : forall n ls,
      match find_col n (concat ls) with
      | Some r => exists l, In l ls /\ find_col n l = Some r
      | None => forall l, In l ls -> find_col n l = None
      end.
  Proof.
    induction ls as [|l ls IH]; simpl; [tauto|]. rewrite find_col_app.
    destruct (find_col n l) eqn:E.
    - exists l; auto.
    - destruct (find_col n (concat ls)).
      + destruct IH as (l' & ? & ?). eauto.
      + intros l' [<-|H]; auto.
  Qed.
  Lemma uniq_cols_find : forall cols seen n, find_col n (uniq_cols seen cols) = if str_in n seen then None else find_col n cols.
  Proof.
    induction cols as [|c cols IH]; intros seen n; simpl.
    - destruct (str_in n seen); auto.
    - destruct (str_in (oc_name c) seen) eqn:E.
      + rewrite IH. destruct (str_in n seen) eqn:E2; auto. destruct (seqb_spec n (oc_name c)) as [->|]; [congruence|auto].
      + simpl. destruct (seqb_spec n (oc_name c)) as [->|Hn].
        * now rewrite E.
        * rewrite IH. unfold str_in. simpl. destruct (seqb_spec n (oc_name c)); [congruence|]. auto.
  Qed.
  Lemma filter_find : forall (p : gostring -> bool) cols n,
      find_col n (filter (fun c => p (oc_name c)) cols) = if p n then find_col n cols else None.
  Proof.
    induction cols as [|c cols IH]; intros n; simpl.
    - destruct (p n); auto.
    - destruct (p (oc_name c)) eqn:E; simpl.
      + destruct (seqb_spec n (oc_name c)) as [->|]; [now rewrite E|auto].
      + rewrite IH. destruct (seqb_spec n (oc_name c)) as [->|]; [now rewrite E|auto].
  Qed.

  Definition star1 (e : senv) (a n : gostring) (r : refs) : Prop :=
    match a with [] => some_table (s_int e) n r | _ => exists f, named e a = Some f /\ f n = Some r end.
  Lemma star_cols_spec : forall stars path k i e cols, denI i e ->
      star_cols ord path k i stars = Ok cols ->
      (forall a, In a stars -> a <> [] -> named e a <> None) /\
      forall n, match find_col n cols with
                | Some r => exists a, In a stars /\ star1 e a n r
                | None => forall a r, In a stars -> ~ star1 e a n r
                end.
  Proof.
    induction stars as [|s stars IH]; intros path k i e cols HD H; simpl in H.
    - inversion H; subst. split; [intros a []|]. intros n. simpl. tauto.
    - set (m := match s with [] => Ok (concat (map snd (entries ord (path ++ [k]) (i_int i)))) | _ => table_cols i s end) in H.
      destruct m as [c1|msg|] eqn:E1; simpl in H; try discriminate.
      destruct (star_cols ord path (S k) i stars) as [c2|msg|] eqn:E2; simpl in H; try discriminate.
      inversion H; subst. apply (IH _ _ _ e) in E2; auto. destruct E2 as [IH1 IH2].
      assert (HS : (s <> [] -> named e s <> None) /\
                   forall n, match find_col n c1 with Some r => star1 e s n r | None => forall r, ~ star1 e s n r end).
      { unfold m in E1. destruct s as [|x s].
        - split; [congruence|]. intros n. inversion E1; subst. pose proof (find_col_concat n (map snd (entries ord (path ++ [k]) (i_int i)))) as HC.
          destruct (find_col n _).
          + destruct HC as (l0 & HI & HF). apply in_map_iff in HI. destruct HI as ([kk cc] & Ecc & HI). simpl in Ecc. subst cc.
            apply entries_In in HI; auto. destruct (denE_Some _ _ _ _ (di_int _ _ HD) HI) as (f & Hf & Hd).
            exists kk, f. split; auto. now rewrite <- Hd.
          + intros r (kk & f & Hf & Hr). destruct (denE_Some' _ _ _ _ (di_int _ _ HD) Hf) as (cc & Hcc & Hd).
            rewrite <- Hd in Hr. rewrite (HC cc) in Hr; [discriminate|]. apply in_map_iff. exists (kk, cc). split; auto.
            now apply entries_In.
        - destruct (table_cols_sound _ _ _ _ HD E1) as (f & Hf & Hd). split; [congruence|]. intros n. rewrite Hd. simpl.
          destruct (f n) eqn:En; [eauto|]. intros r (f' & Hf' & Hr). congruence. }
      destruct HS as [HS1 HS2]. split.
      + intros a [<-|HI]; auto.
      + intros n. rewrite find_col_app. specialize (HS2 n). specialize (IH2 n).
        destruct (find_col n c1).
        * exists s. simpl; auto.
        * destruct (find_col n c2).
          -- destruct IH2 as (a & Ha & HA). exists a. simpl; auto.
          -- intros a r [<-|HI]; auto.
  Qed.
  Lemma star_cols_complete : forall stars path k i e, denI i e ->
      (forall a, In a stars -> a <> [] -> named e a <> None) ->
      exists cols, star_cols ord path k i stars = Ok cols.
  Proof.
    induction stars as [|s stars IH]; intros path k i e HD H; simpl; [eauto|].
    destruct (IH path (S k) i e HD) as [c2 E2]; [intros a Ha; apply H; now right|].
    rewrite E2. destruct s as [|x s]; simpl; [eauto|].
    destruct (named e (x :: s)) as [f|] eqn:EN; [|elim (H (x :: s)); simpl; auto; congruence].
    destruct (table_cols_complete _ _ _ _ HD EN) as (c1 & -> & _). simpl. eauto.
  Qed.

  Lemma list_star_find : forall n (found : list ocol) res,
      find_col n (found ++ uniq_cols [] (filter (fun c => negb (str_in (oc_name c) (map oc_name found))) res))
      = match mget (map as_pair found) n with Some r => Some r | None => find_col n res end.
  Proof.
    intros n found res. rewrite find_col_app, uniq_cols_find.
    rewrite (filter_find (fun x => negb (str_in x (map oc_name found)))). simpl.
    assert (HF : find_col n found = mget (map as_pair found) n).
    { clear. induction found as [|c found IH]; simpl; auto. unfold as_pair at 1. destruct (seqb n (oc_name c)); auto. }
    rewrite HF. destruct (mget (map as_pair found) n) eqn:E; auto.
    apply mget_None in E. destruct (str_in n (map oc_name found)) eqn:ES; auto. exfalso. apply E.
    apply str_in_iff in ES. unfold keys. rewrite map_map. exact ES.
  Qed.
End Fields.

(** ** Whole scopes *)
Section Calc.
  Context (ord : order gostring) (Hord : is_order ord) (db : smap table_schema).

  Lemma table_map_get : forall tables k, mget (table_map tables) k = last_such (fun t => seqb (t_name t) k) tables.
  Proof.
    intros. unfold table_map. rewrite (mget_fold_mset t_name (fun t => t)), last_such_find. destruct (find _ _); auto.
  Qed.

  Definition sound_at (sc : scope) : Prop := forall path ext E l rf, denE ext E ->
      calc ord db path sc ext = Ok (l, rf) ->
      exists o us, means db True sc E o us /\ den l o /\ records rf us.

  Lemma subs_loop_sound : forall path tables ext E subs, Forall sound_at subs -> denE ext E ->
      forall k i e us0 i', denI i e -> i_ext i = ext -> records (i_rf i) us0 ->
      subs_loop ord (calc ord db) path (table_map tables) k subs i = Ok i' ->
      exists e' us, subs_mean db True tables E e subs e' us /\ denI i' e' /\ records (i_rf i') (us0 ++ us).
  Proof.
    intros path tables ext E subs HF HE. induction HF as [|s subs Hs HF IH]; intros k i e us0 i' HD Hext HR H; simpl in H.
    - inversion H; subst. exists e, []. rewrite app_nil_r. split; [constructor|auto].
    - rewrite table_map_get in H. destruct (last_such _ tables) as [t|] eqn:ET; [|discriminate].
      destruct (calc ord db (path ++ [0; k]) s _) as [[l rf]|m|] eqn:EC; simpl in H; try discriminate.
      rewrite Hext in EC.
      apply (Hs _ _ (if t_lateral t then over E (shown e) else E)) in EC.
      2:{ destruct (t_lateral t); auto. apply assign_den; auto. now apply visible_den. }
      destruct EC as (o & u & HM & Hden & HRec).
      eapply IH in H.
      + destruct H as (e' & us & HSM & HD' & HR'). exists e', (u ++ us). split; [|split; auto].
        * econstructor; eauto.
        * rewrite app_assoc. exact HR'.
      + apply add_subquery_den; eauto.
      + simpl. auto.
      + simpl. now apply records_add_fields.
  Qed.
  Lemma fscopes_loop_sound : forall path vis E fscs, Forall sound_at fscs -> denE vis E ->
      forall k i e us0 i', denI i e -> records (i_rf i) us0 ->
      field_scopes_loop ord (calc ord db) path vis k fscs i = Ok i' ->
      exists e' us, fscopes_mean db True E e fscs e' us /\ denI i' e' /\ records (i_rf i') (us0 ++ us).
  Proof.
    intros path vis E fscs HF HE. induction HF as [|s fscs Hs HF IH]; intros k i e us0 i' HD HR H; simpl in H.
    - inversion H; subst. exists e, []. rewrite app_nil_r. split; [constructor|auto].
    - destruct (calc ord db (path ++ [2; k]) s vis) as [[l rf]|m|] eqn:EC; simpl in H; try discriminate.
      apply (Hs _ _ E) in EC; auto. destruct EC as (o & u & HM & Hden & HRec).
      eapply IH in H.
      + destruct H as (e' & us & HSM & HD' & HR'). exists e', (u ++ us). split; [|split; auto].
        * econstructor; eauto.
        * rewrite app_assoc. exact HR'.
      + apply add_subquery_den; eauto.
      + simpl. now apply records_add_fields.
  Qed.

  Lemma starred_perm : forall path fields stars, (forall a, In a stars <-> In a [] \/ starred fields a) ->
      forall a, In a (ord path stars) <-> starred fields a.
  Proof.
    intros path fields stars H a. specialize (H a). simpl in H.
    assert (HP : In a (ord path stars) <-> In a stars).
    { split; apply Permutation_in; [apply Hord|apply Permutation_sym, Hord]. }
    tauto.
  Qed.

  Theorem calc_sound : forall sc, sound_at sc.
  Proof.
    induction sc as [name fields fscs tables subs IHf IHs] using scope_ind'.
    intros path ext E l rf HE H. cbn [calc] in H.
    destruct (subs_loop _ _ _ _ _ _ _) as [i1|m|] eqn:E1; simpl in H; try discriminate.
    destruct (field_scopes_loop _ _ _ _ _ _ _) as [i2|m|] eqn:E2; simpl in H; try discriminate.
    destruct (fields_loop _ _ _ _ _ _ _) as [[[outs rf3] stars]|m|] eqn:E3; simpl in H; try discriminate.
    unfold list_star in H.
    destruct (star_cols _ _ _ _ _) as [cols|m|] eqn:E4; simpl in H; try discriminate.
    inversion H; subst l rf. clear H.
    destruct (subs_loop_sound path tables ext E subs IHs HE _ _ _ _ _ (start_den db tables ext E HE) eq_refl records_nil E1)
      as (e1 & u1 & M1 & D1 & R1).
    destruct (fscopes_loop_sound path _ _ fscs IHf (visible_den _ _ D1) _ _ _ _ _ D1 R1 E2) as (e2 & u2 & M2 & D2 & R2).
    destruct (fields_loop_sound ord Hord _ _ _ _ _ _ _ _ _ _ D2 E3) as (u3 & M3 & -> & HS).
    destruct (star_cols_spec ord Hord _ _ _ _ _ _ D2 E4) as [HK HC].
    pose proof (starred_perm ((path ++ [5]) ++ [1]) fields stars HS) as HP.
    exists (fun n => match mget (map as_pair outs) n with Some r => Some r | None => find_col n cols end), (u1 ++ u2 ++ u3).
    split; [|split].
    - econstructor; eauto.
      + intros a Ha. apply HK. now apply HP.
      + intros n. specialize (HC n). destruct (mget (map as_pair outs) n); auto.
        destruct (find_col n cols).
        * destruct HC as (a & Ha & HA). split; auto. exists a. split; [now apply HP|exact HA].
        * intros r (a & Ha & HA). eapply HC; eauto. now apply HP.
    - intros n. apply list_star_find.
    - rewrite app_assoc. apply records_fold. exact R2.
  Qed.

  Definition complete_at (sc : scope) : Prop := forall path ext E o us, denE ext E ->
      means db False sc E o us ->
      exists l rf, calc ord db path sc ext = Ok (l, rf) /\ den l o /\ records rf us.

  Lemma subs_loop_complete : forall path tables ext E subs, Forall complete_at subs -> denE ext E ->
      forall k i e us0 e' us, denI i e -> i_ext i = ext -> records (i_rf i) us0 ->
      subs_mean db False tables E e subs e' us ->
      exists i', subs_loop ord (calc ord db) path (table_map tables) k subs i = Ok i' /\
        denI i' e' /\ records (i_rf i') (us0 ++ us).
  Proof.
    intros path tables ext E subs HF HE. induction HF as [|s subs Hs HF IH]; intros k i e us0 e' us HD Hext HR H; inversion H; subst; simpl.
    - exists i. rewrite app_nil_r. auto.
    - rewrite table_map_get. match goal with HX : last_such _ tables = Some _ |- _ => rewrite HX end.
      match goal with HX : means _ _ _ _ _ _ |- _ => rename HX into HM end.
      assert (HE2 : denE (if t_lateral t then assign (i_ext i) (visible i) else i_ext i) (if t_lateral t then over E (shown e) else E)).
      { destruct (t_lateral t); auto. apply assign_den; auto. now apply visible_den. }
      destruct (Hs (path ++ [0; k]) _ _ _ _ HE2 HM) as (l & rf & -> & Hden & HRec).
      simpl. rewrite app_assoc. eapply IH.
      + apply add_subquery_den; eauto.
      + simpl. auto.
      + simpl. now apply records_add_fields.
      + eassumption.
  Qed.
  Lemma fscopes_loop_complete : forall path vis E fscs, Forall complete_at fscs -> denE vis E ->
      forall k i e us0 e' us, denI i e -> records (i_rf i) us0 ->
      fscopes_mean db False E e fscs e' us ->
      exists i', field_scopes_loop ord (calc ord db) path vis k fscs i = Ok i' /\
        denI i' e' /\ records (i_rf i') (us0 ++ us).
  Proof.
    intros path vis E fscs HF HE. induction HF as [|s fscs Hs HF IH]; intros k i e us0 e' us HD HR H; inversion H; subst; simpl.
    - exists i. rewrite app_nil_r. auto.
    - match goal with HX : means _ _ _ _ _ _ |- _ => rename HX into HM end.
      destruct (Hs (path ++ [2; k]) vis _ _ _ HE HM) as (l & rf & -> & Hden & HRec).
      simpl. rewrite app_assoc. eapply IH.
      + apply add_subquery_den; eauto.
      + simpl. now apply records_add_fields.
      + eassumption.
  Qed.

  Theorem calc_complete : forall sc, complete_at sc.
  Proof.
    induction sc as [name fields fscs tables subs IHf IHs] using scope_ind'.
    intros path ext E o us HE H. inversion H; subst. clear H. cbn [calc].
    match goal with HX : subs_mean _ _ _ _ _ _ _ _ |- _ => rename HX into M1 end.
    match goal with HX : fscopes_mean _ _ _ _ _ _ _ |- _ => rename HX into M2 end.
    match goal with HX : fields_mean _ _ _ _ _ |- _ => rename HX into M3 end.
    match goal with HX : stars_known _ _ |- _ => rename HX into M4 end.
    match goal with HX : output _ _ _ _ _ |- _ => rename HX into M5 end.
    destruct (subs_loop_complete path tables ext E subs IHs HE 0 _ _ _ _ _ (start_den db tables ext E HE) eq_refl records_nil M1)
      as (i1 & -> & D1 & R1). simpl.
    destruct (fscopes_loop_complete path _ _ fscs IHf (visible_den _ _ D1) 0 _ _ _ _ _ D1 R1 M2) as (i2 & -> & D2 & R2). simpl.
    destruct (fields_loop_complete ord Hord _ (path ++ [4]) 0 _ _ (i_rf i2) [] _ _ D2 M3) as (outs' & stars & -> & <- & HS). simpl.
    pose proof (starred_perm ((path ++ [5]) ++ [1]) fields stars HS) as HP.
    unfold list_star.
    destruct (star_cols_complete ord (ord ((path ++ [5]) ++ [1]) stars) ((path ++ [5]) ++ [0]) 0 i2 e2 D2) as [cols E4].
    { intros a Ha. apply M4. now apply HP. }
    rewrite E4. simpl. eexists. eexists. split; [reflexivity|]. split.
    - intros n. rewrite list_star_find. specialize (M5 n). destruct (mget (map as_pair outs') n); auto.
      destruct (star_cols_spec ord Hord _ _ _ _ _ _ D2 E4) as [HK HC]. specialize (HC n).
      destruct (find_col n cols) as [r|].
      + destruct HC as (a & Ha & HA). assert (HSM : star_means e2 fields n r) by (exists a; split; [now apply HP|exact HA]).
        destruct (o n) as [r'|].
        * destruct M5 as [_ [[]|M5]]. f_equal. auto.
        * elim (M5 r HSM).
      + destruct (o n) as [r'|]; auto. destruct M5 as [(a & Ha & HA) _]. elim (HC a r'); auto. now apply HP.
    - rewrite app_assoc. apply records_fold. exact R2.
  Qed.
End Calc.
