From Coq Require Import String List NArith Bool Lia Arith Permutation Sorting.
From Verif Require Import Base IndexText IndexBuild IndexBuildSpec IndexBuildProofs TableFields TableFieldsSpec
  TableFieldsProofs BuildSpec.
Import ListNotations.

(** ** Lineage only mentions schema columns *)
Section Schema.
  Context (db : smap table_schema).
  Definition okR (f : rel) : Prop := forall n r, f n = Some r -> Forall (schema_col db) r.
  Definition okE (E : env) : Prop := forall k f, E k = Some f -> okR f.
  Definition okS (e : senv) : Prop := okE (s_int e) /\ okE (s_ext e).
  Definition okU (us : list use) : Prop := forall t c ty, In (t, c, ty) us -> schema_col db (t, c).

  Lemma base_ok : forall tables, okE (base db tables).
  Proof.
    intros tables k f H n r Hr. unfold base in H. destruct (existsb _ tables); [|discriminate].
    destruct (mget db k) as [ts|] eqn:E; [|discriminate]. destruct (ts_cols ts) as [|c0 cs] eqn:EC; [discriminate|].
    rewrite <- EC in H. injection H as <-. destruct (str_in n (ts_cols ts)) eqn:ES; [|discriminate]. injection Hr as <-.
    constructor; auto. exists ts. split; auto. now apply str_in_iff.
  Qed.
  Lemma shown_ok : forall e, okS e -> okE (shown e).
  Proof. intros e [H _] k f Hf. unfold shown in Hf. destruct (s_as e k); [|discriminate]. eapply H; eauto. Qed.
  Lemma over_ok : forall A B, okE A -> okE B -> okE (over A B).
  Proof. intros A B HA HB k f Hf. unfold over in Hf. destruct (B k) eqn:E; [inversion Hf; subst; eapply HB; eauto|eapply HA; eauto]. Qed.
  Lemma with_sub_ok : forall e n a o, okS e -> okR o -> okS (with_sub e n a o).
  Proof.
    intros e n a o [H1 H2] Ho. split; auto. intros k f Hf. simpl in Hf. unfold upd in Hf.
    destruct (seqb k n); [inversion Hf; subst; auto|eapply H1; eauto].
  Qed.
  Lemma some_table_ok : forall E n r, okE E -> some_table E n r -> Forall (schema_col db) r.
  Proof. intros E n r HE (k & f & H1 & H2). eapply HE; eauto. Qed.
  Lemma named_ok : forall e a f, okS e -> named e a = Some f -> okR f.
  Proof.
    intros e a f [H1 H2] H. unfold named in H. destruct (s_as e a) as [g|]; [|discriminate].
    destruct (s_int e g) eqn:E; [inversion H; subst; eapply H1; eauto|eapply H2; eauto].
  Qed.
  Lemma col_means_ok : forall amb e c r, okS e -> col_means amb e c r -> Forall (schema_col db) r.
  Proof.
    intros amb e c r He H. unfold col_means in H.
    assert (HG : match fc_table c with
        | [] => unqualified e (fc_name c) r /\ (amb \/ (forall r', unqualified e (fc_name c) r' -> r' = r))
        | a => exists f, named e a = Some f /\ f (fc_name c) = Some r
        end -> Forall (schema_col db) r).
    { clear H. intros H. destruct (fc_table c) as [|x a].
      - destruct H as [[H|[_ [H|(_ & _ & ->)]]] _]; [exact (some_table_ok _ _ _ (proj1 He) H)|exact (some_table_ok _ _ _ (proj2 He) H)|constructor].
      - destruct H as (f & Hf & Hr). eapply named_ok; eauto. }
    destruct (fc_type c); auto; subst; constructor.
  Qed.
  Lemma cols_mean_ok : forall amb e cs rs us, okS e -> cols_mean amb e cs rs us -> Forall (schema_col db) rs /\ okU us.
  Proof.
    intros amb e cs rs us He H. induction H as [|c cs r rs us H1 H2 [IH1 IH2]].
    - split; [constructor|intros t c ty []].
    - pose proof (col_means_ok _ _ _ _ He H1) as HC. split.
      + apply Forall_app; auto.
      + intros t c' ty HI. apply in_app_or in HI. destruct HI as [HI|HI]; [|eapply IH2; eauto].
        unfold uses_of in HI. apply in_map_iff in HI. destruct HI as ([t0 c0] & Heq & HI). inversion Heq; subst.
        rewrite Forall_forall in HC. apply (HC _ HI).
  Qed.
  Lemma fields_mean_ok : forall amb e fs outs us, okS e -> fields_mean amb e fs outs us ->
      (forall n r, In (n, r) outs -> Forall (schema_col db) r) /\ okU us.
  Proof.
    intros amb e fs outs us He H. induction H as [|f fs r outs us us' H1 H2 [IH1 IH2]].
    - split; [intros n r []|intros t c ty []].
    - destruct (cols_mean_ok _ _ _ _ _ He H1) as [HC HU]. split.
      + intros n r' HI. destruct (field_name f) as [|x fn]; [eauto|]. destruct HI as [HI|HI]; [|eauto].
        inversion HI; subst; auto.
      + intros t c ty HI. apply in_app_or in HI. destruct HI as [HI|HI]; [eapply HU|eapply IH2]; eauto.
  Qed.
  Lemma okU_app : forall a b, okU a -> okU b -> okU (a ++ b).
  Proof. intros a b HA HB t c ty HI. apply in_app_or in HI. destruct HI; [eapply HA|eapply HB]; eauto. Qed.

  Theorem means_ok : forall sc amb E o us, okE E -> means db amb sc E o us -> okR o /\ okU us.
  Proof.
    induction sc as [name fields fscs tables subs IHf IHs] using scope_ind'. intros amb E o us HE H.
    inversion H; subst. clear H.
    match goal with HX : subs_mean _ _ _ _ _ _ _ _ |- _ => rename HX into M1 end.
    match goal with HX : fscopes_mean _ _ _ _ _ _ _ |- _ => rename HX into M2 end.
    match goal with HX : fields_mean _ _ _ _ _ |- _ => rename HX into M3 end.
    match goal with HX : output _ _ _ _ _ |- _ => rename HX into M5 end.
    assert (HS : forall subs, Forall (fun sc => forall amb E o us, okE E -> means db amb sc E o us -> okR o /\ okU us) subs ->
        forall e e' u, okS e -> subs_mean db amb tables E e subs e' u -> okS e' /\ okU u).
    { clear M1 M2 M3 M5 IHs. intros l HF. induction HF as [|s l Hs HF IH]; intros e e' u He HM; inversion HM; subst.
      - split; auto. intros t c ty [].
      - destruct (Hs amb (if t_lateral t then over E (shown e) else E) o0 u0) as [Ho Hu].
        { destruct (t_lateral t); auto. apply over_ok; auto. now apply shown_ok. }
        { assumption. }
        eapply IH in H8; [|apply with_sub_ok; auto]. destruct H8. split; auto. now apply okU_app. }
    assert (S0 : okS (start db tables E)) by (split; [exact (base_ok tables)|exact HE]).
    destruct (HS _ IHs _ _ _ S0 M1) as [S1 U1].
    assert (HFS : forall vis fscs, okE vis -> Forall (fun sc => forall amb E o us, okE E -> means db amb sc E o us -> okR o /\ okU us) fscs ->
        forall e e' u, okS e -> fscopes_mean db amb vis e fscs e' u -> okS e' /\ okU u).
    { clear M1 M2 M3 M5 IHf. intros vis l Hv HF. induction HF as [|s l Hs HF IH]; intros e e' u He HM; inversion HM; subst.
      - split; auto. intros t c ty [].
      - match goal with HX : means _ _ _ _ _ _ |- _ => destruct (Hs _ _ _ _ Hv HX) as [Ho Hu] end.
        match goal with HX : fscopes_mean _ _ _ _ l _ _ |- _ => eapply IH in HX; [destruct HX|apply with_sub_ok; auto] end.
        split; auto. now apply okU_app. }
    destruct (HFS _ _ (shown_ok _ S1) IHf _ _ _ S1 M2) as [S2 U2].
    destruct (fields_mean_ok _ _ _ _ _ S2 M3) as [HO U3].
    split.
    - intros n r Hr. specialize (M5 n). destruct (mget outs n) as [r'|] eqn:EO.
      + apply mget_In in EO. rewrite M5 in Hr. inversion Hr; subst. eapply HO; eauto.
      + rewrite Hr in M5. destruct M5 as [(a & Ha & HA) _]. destruct a.
        * exact (some_table_ok _ _ _ (proj1 S2) HA).
        * destruct HA as (f & Hf & Hfr). eapply named_ok; eauto.
    - apply okU_app; auto. now apply okU_app.
  Qed.
  Lemma nothing_ok : okE nothing.
  Proof. intros k f H. discriminate. Qed.
End Schema.

Lemma nothing_den : denE [] nothing.
Proof. split; [constructor|]. intros k. simpl. auto. Qed.

(** ** From fields to targets *)
Lemma table_fields_sound : forall ord db path sc rf, is_order ord -> table_fields ord db path sc = Ok rf ->
    exists o us, means db True sc nothing o us /\ records rf us.
Proof.
  intros ord db path sc rf Ho H. unfold table_fields in H.
  destruct (calc ord db path sc []) as [[l r]|m|] eqn:E; simpl in H; try discriminate. inversion H; subst.
  destruct (calc_sound ord Ho db sc _ _ _ _ _ nothing_den E) as (o & us & HM & _ & HR). eauto.
Qed.
Lemma table_fields_complete : forall ord db path sc o us, is_order ord -> means db False sc nothing o us ->
    exists rf, table_fields ord db path sc = Ok rf /\ records rf us.
Proof.
  intros ord db path sc o us Ho H. unfold table_fields.
  destruct (calc_complete ord Ho db sc path [] nothing o us nothing_den H) as (l & rf & -> & _ & HR). simpl. eauto.
Qed.

Lemma scope_targets_ok : forall ordf db path l k,
    (forall e, In e l -> mget db (fst e) <> None) -> exists ts, scope_targets ordf db path k l = Ok ts.
Proof.
  induction l as [|e l IH]; intros k H; simpl; [eauto|].
  destruct (mget db (fst e)) eqn:E; [|elim (H e); auto; now left].
  destruct (IH (S k)) as [ts ->]; [intros; apply H; now right|]. simpl. eauto.
Qed.
Lemma scope_targets_In : forall ordf db path l k ts x, scope_targets ordf db path k l = Ok ts ->
    (In x ts <-> exists j e sch fs, nth_error l j = Some e /\ mget db (fst e) = Some sch /\
       In fs (index_composition ordf (path ++ [k + j]) (snd e) (ts_pks sch)) /\
       x = {| itt_table := fst e; itt_fields := fs |}).
Proof.
  induction l as [|e l IH]; intros k ts x H; simpl in H.
  - inversion H; subst. split; [intros []|]. intros (j & e & sch & fs & HN & _). destruct j; discriminate.
  - destruct (mget db (fst e)) as [sch|] eqn:E; [|discriminate].
    destruct (scope_targets ordf db path (S k) l) as [rest|m|] eqn:ER; simpl in H; try discriminate.
    inversion H; subst. rewrite in_app_iff, in_map_iff, (IH (S k) rest x ER). split.
    + intros [(fs & <- & HI)|(j & e' & sch' & fs & HN & HM & HI & ->)].
      * exists 0, e, sch, fs. rewrite Nat.add_0_r. auto.
      * exists (S j), e', sch', fs. rewrite Nat.add_succ_r. auto.
    + intros ([|j] & e' & sch' & fs & HN & HM & HI & ->); simpl in HN.
      * inversion HN; subst. rewrite Nat.add_0_r in HI. left. exists fs. rewrite E in HM. inversion HM; subst. auto.
      * right. exists j, e', sch', fs. rewrite Nat.add_succ_r in HI. auto.
Qed.

Section Build.
  Context (ord : order gostring) (ordf : order ifield) (Hord : is_order ord) (Hordf : is_order ordf)
          (db : smap table_schema).

  Lemma build_from_scope_inv : forall path sc ts, build_from_scope ord ordf db path sc = Ok ts ->
      exists rf o us, table_fields ord db (path ++ [0]) sc = Ok rf /\
        means db True sc nothing o us /\ records rf us /\
        scope_targets ordf db (path ++ [1]) 0 (entries ord (path ++ [2]) rf) = Ok ts.
  Proof.
    intros path sc ts H. unfold build_from_scope in H.
    destruct (table_fields ord db (path ++ [0]) sc) as [rf|m|] eqn:E; simpl in H; try discriminate.
    destruct (table_fields_sound _ _ _ _ _ Hord E) as (o & us & HM & HR). exists rf, o, us. auto.
  Qed.

  (** Where a target comes from. *)
  Lemma target_origin : forall path sc ts x, build_from_scope ord ordf db path sc = Ok ts -> In x ts ->
      exists rf l sch p, table_fields ord db (path ++ [0]) sc = Ok rf /\ mget rf (itt_table x) = Some l /\
        mget db (itt_table x) = Some sch /\ NoDup (map fst l) /\
        In (itt_fields x) (index_composition ordf p l (ts_pks sch)) /\
        (forall c ty, In (c, ty) l -> In c (ts_cols sch)).
  Proof.
    intros path sc ts x H HI. destruct (build_from_scope_inv _ _ _ H) as (rf & o & us & E & HM & HR & HT).
    apply (scope_targets_In _ _ _ _ _ _ _ HT) in HI. destruct HI as (j & [t l] & sch & fs & HN & HS & HF & ->).
    apply nth_error_In in HN. apply entries_In in HN; auto. simpl in *.
    exists rf, l, sch, ((path ++ [1]) ++ [j]).
    assert (HND := proj1 (proj2 HR)). destruct (HND _ _ HN) as [_ HN'].
    repeat (split; auto).
    intros c ty HIc. destruct HR as (_ & _ & _ & HR & _).
    assert (Hu : In (t, c, ty) us) by (apply HR; exists l; auto).
    destruct (means_ok db _ _ _ _ _ (nothing_ok db) HM) as [_ HU]. destruct (HU _ _ _ Hu) as (ts' & HS' & HC).
    simpl in *. congruence.
  Qed.

  Lemma target_keys_NoDup : forall path sc ts, build_from_scope ord ordf db path sc = Ok ts ->
      NoDup (map to_index_target ts).
  Proof.
    intros path sc ts H. destruct (build_from_scope_inv _ _ _ H) as (rf & o & us & E & HM & HR & HT).
    assert (HK : NoDup (map fst (entries ord (path ++ [2]) rf))) by (apply entries_keys; auto; apply HR).
    assert (HL : forall t l, In (t, l) (entries ord (path ++ [2]) rf) -> NoDup (map fst l)).
    { intros t l HI. apply entries_In in HI; auto. destruct HR as (_ & HR & _). apply (HR _ _ HI). }
    revert HK HL HT. generalize (entries ord (path ++ [2]) rf) as l. generalize (path ++ [1]) as p1. generalize 0 as k. clear - Hordf.
    intros k p1 l. revert k ts. induction l as [|[t cols] l IH]; intros k ts HK HL HT; simpl in HT.
    - inversion HT; constructor.
    - destruct (mget db t) as [sch|] eqn:E; [|discriminate].
      destruct (scope_targets ordf db p1 (S k) l) as [rest|m|] eqn:ER; simpl in HT; try discriminate.
      inversion HT; subst. simpl in HK. inversion HK; subst.
      assert (HND : NoDup (map fst cols)) by (apply (HL t); now left).
      assert (HR2 : NoDup (map to_index_target rest)).
      { apply (IH (S k)); [assumption| |exact ER]. intros t' l' HI. apply (HL t'). now right. }
      rewrite map_app, map_map.
      assert (HD : forall (x y : list index_target), NoDup x -> NoDup y -> (forall z, In z x -> In z y -> False) -> NoDup (x ++ y)).
      { clear. induction x as [|u x IHx]; simpl; auto. intros y Hx Hy Hd. inversion Hx; subst. constructor.
        - rewrite in_app_iff. intros [HI|HI]; [auto|]. apply (Hd u); auto.
        - apply IHx; auto. intros z Hz1 Hz2. apply (Hd z); auto. }
      apply HD; auto.
      + set (ic := index_composition ordf (p1 ++ [k]) cols (ts_pks sch)).
        assert (HS : forall fs, In fs ic -> forall x, In x fs -> In x cols).
        { intros fs Hfs. apply index_composition_sound in Hfs; auto. tauto. }
        assert (HN : NoDup ic) by (apply index_composition_NoDup; auto).
        clear -HN HS HND. unfold to_index_target. simpl. induction HN as [|fs ic Hni HN IH]; simpl; constructor.
        * intros HI. apply in_map_iff in HI. destruct HI as (fs' & Heq & HI). inversion Heq as [HE].
          apply Hni. replace fs with fs'; auto.
          assert (H1 := HS fs (or_introl eq_refl)). assert (H2 := HS fs' (or_intror HI)).
          clear - HE H1 H2 HND. revert fs HE H1. induction fs' as [|a fs' IH]; intros [|b fs] HE H1; simpl in HE; try discriminate; auto.
          inversion HE. f_equal.
          -- apply (name_inj cols); auto; [apply H2|apply H1]; now left.
          -- apply IH; auto; intros x Hx; [apply H2|apply H1]; now right.
        * apply IH. intros fs' Hfs'. apply HS. now right.
      + intros z Hz1 Hz2. apply in_map_iff in Hz1. destruct Hz1 as (fs & <- & _).
        apply in_map_iff in Hz2. destruct Hz2 as (x & Heq & Hx).
        apply (scope_targets_In _ _ _ _ _ _ _ ER) in Hx. destruct Hx as (j & [t' l'] & sch' & fs' & HN & _ & _ & ->).
        unfold to_index_target in Heq. simpl in Heq. inversion Heq; subst. apply nth_error_In in HN.
        match goal with HX : ~ In t _ |- _ => apply HX end. apply in_map_iff. exists (t, l'). auto.
  Qed.
End Build.

(** ** Determinism *)
Lemma records_same : forall rf rf' us, records rf us -> records rf' us -> plain us ->
    forall t, match mget rf t, mget rf' t with
              | Some l, Some l' => Permutation l l'
              | None, None => True
              | _, _ => False
              end.
Proof.
  intros rf rf' us HA HB HP t.
  apply records_iff in HA. destruct HA as (WA & A3 & A4 & A5). apply records_iff in HB. destruct HB as (WB & B3 & B4 & B5).
  assert (HE : forall c, ty_of rf t c = ty_of rf' t c).
  { intros c. specialize (A5 HP t c). specialize (B5 HP t c). specialize (A3 t c). specialize (B3 t c).
    specialize (A4 t c). specialize (B4 t c).
    destruct (ty_of rf t c) as [a|] eqn:EA, (ty_of rf' t c) as [b|] eqn:EB; auto.
    - specialize (A4 _ eq_refl). specialize (B4 _ eq_refl).
      destruct (HP _ _ _ A4) as [-> | ->], (HP _ _ _ B4) as [-> | ->]; auto.
      + assert (Some FReference = Some FCondition) by tauto. congruence.
      + assert (Some FReference = Some FCondition) by tauto. congruence.
    - exfalso. assert (Some a <> None) by congruence. apply A3 in H. apply B3 in H. congruence.
    - exfalso. assert (Some b <> None) by congruence. apply B3 in H. apply A3 in H. congruence. }
  unfold ty_of in HE. destruct (mget rf t) as [l|] eqn:E1, (mget rf' t) as [l'|] eqn:E2; auto.
  - destruct (proj2 WA _ _ E1) as [_ N1]. destruct (proj2 WB _ _ E2) as [_ N2].
    apply NoDup_Permutation.
    + now apply NoDup_map_inv in N1.
    + now apply NoDup_map_inv in N2.
    + intros [c ty]. split; intros HI.
      * apply mget_In. rewrite <- HE. apply In_mget; auto.
      * apply mget_In. rewrite HE. apply In_mget; auto.
  - destruct (proj2 WA _ _ E1) as [N1 _]. destruct l as [|[c ty] l]; [congruence|]. specialize (HE c). simpl in HE.
    rewrite seqb_refl in HE. discriminate.
  - destruct (proj2 WB _ _ E2) as [N1 _]. destruct l' as [|[c ty] l']; [congruence|]. specialize (HE c). simpl in HE.
    rewrite seqb_refl in HE. discriminate.
Qed.

Lemma records_columns_used : forall rf us t l, records rf us -> plain us -> mget rf t = Some l -> columns_used us t l.
Proof.
  intros rf us t l HR HP Hl. apply records_iff in HR. destruct HR as (W & A3 & A4 & A5).
  destruct (proj2 W _ _ Hl) as [_ N1]. split; auto.
  intros c ty. specialize (A3 t c). specialize (A4 t c). specialize (A5 HP t c).
  assert (HT : In (c, ty) l <-> ty_of rf t c = Some ty).
  { unfold ty_of. rewrite Hl. split; [intros; now apply In_mget|apply mget_In]. }
  rewrite HT. split.
  - intros H. pose proof (A4 _ H) as HI. destruct (HP _ _ _ HI) as [-> | ->]; auto.
    right. split; auto. split; auto. rewrite <- A5, H. congruence.
  - intros [[-> H]|(-> & H & H2)]; [now apply A5|].
    destruct (ty_of rf t c) as [ty'|] eqn:E.
    + pose proof (A4 _ eq_refl) as HI. destruct (HP _ _ _ HI) as [-> | ->]; auto. tauto.
    + assert (HX : exists ty, In (t, c, ty) us) by eauto. apply A3 in HX. congruence.
Qed.
Lemma columns_used_perm : forall us t s s', columns_used us t s -> columns_used us t s' -> Permutation s s'.
Proof.
  intros us t s s' [N1 H1] [N2 H2]. apply NoDup_Permutation.
  - now apply NoDup_map_inv in N1.
  - now apply NoDup_map_inv in N2.
  - intros [c ty]. rewrite H1, H2. tauto.
Qed.
Lemma columns_used_refcond : forall us t s, columns_used us t s -> Forall refcond s.
Proof.
  intros us t s [_ H]. apply Forall_forall. intros [c ty] HI. apply H in HI.
  destruct HI as [[-> _]|[-> _]]; reflexivity.
Qed.
Lemma candidate_perm : forall s s' l, Permutation s s' -> candidate s l -> candidate s' l.
Proof.
  intros s s' l HP [(H1 & H2 & H3)|(Hne & cs & rs & -> & Hc & Hr & Ha)].
  - left. split; auto. split; auto. intros x Hx. apply H3 in Hx. unfold conditions in *. eapply Permutation_in; [|eassumption].
    now apply Permutation_filter.
  - right. split.
    + intros E. apply Hne. apply Permutation_nil. rewrite <- E. apply Permutation_filter. now apply Permutation_sym.
    + exists cs, rs. split; auto. split; [|split; auto].
      * eapply perm_trans; [eassumption|]. now apply Permutation_filter.
      * eapply perm_trans; [eassumption|]. now apply Permutation_filter.
Qed.

(** The targets of one scope, in terms of its meaning alone. *)
Definition scope_target (db : smap table_schema) (us : list use) (x : index_target_table) : Prop :=
  exists s sch, columns_used us (itt_table x) s /\ mget db (itt_table x) = Some sch /\
    candidate s (itt_fields x) /\ ~ only_pk (ts_pks sch) (itt_fields x).

Lemma candidate_nonempty : forall s l, candidate s l -> exists x, In x l /\ In x s.
Proof.
  intros s l [(H1 & _ & H3)|(Hne & cs & rs & -> & _ & Hr & _)].
  - destruct l as [|x l]; [congruence|]. exists x. split; [now left|]. specialize (H3 x (or_introl eq_refl)).
    unfold conditions in H3. apply filter_In in H3. tauto.
  - destruct (references s) as [|x r] eqn:E; [congruence|]. exists x. split.
    + apply in_or_app. right. apply (Permutation_in _ (Permutation_sym Hr)). now left.
    + assert (HI : In x (references s)) by (rewrite E; now left). unfold references in HI. apply filter_In in HI. tauto.
Qed.

Lemma build_from_scope_spec : forall ord ordf db path sc o us, is_order ord -> is_order ordf ->
    means db False sc nothing o us -> plain us ->
    exists ts, build_from_scope ord ordf db path sc = Ok ts /\ NoDup ts /\ forall x, In x ts <-> scope_target db us x.
Proof.
  intros ord ordf db path sc o us Ho Hof HM HP.
  destruct (table_fields_complete ord db (path ++ [0]) sc o us Ho HM) as (rf & E & HR).
  destruct (means_ok db _ _ _ _ _ (nothing_ok db) HM) as [_ HU].
  assert (HD : forall t l, mget rf t = Some l -> mget db t <> None).
  { intros t l Hl. destruct HR as (_ & HR1 & _ & HR2 & _). destruct (HR1 _ _ Hl) as [Hne _].
    destruct l as [|[c ty] l]; [congruence|]. destruct (HU t c ty) as (sch & Hs & _).
    - apply HR2. exists ((c, ty) :: l). split; auto. now left.
    - simpl in Hs. congruence. }
  destruct (scope_targets_ok ordf db (path ++ [1]) (entries ord (path ++ [2]) rf) 0) as [ts HT].
  { intros [t l] HI. apply entries_In in HI; auto. simpl. eauto. }
  assert (HB : build_from_scope ord ordf db path sc = Ok ts).
  { unfold build_from_scope. rewrite E. simpl. exact HT. }
  exists ts. split; auto. split.
  - eapply NoDup_map_inv. eapply target_keys_NoDup; eauto.
  - intros x. rewrite (scope_targets_In _ _ _ _ _ _ x HT). split.
    + intros (j & [t l] & sch & fs & HN & HS & HI & ->). simpl in *. apply nth_error_In in HN. apply entries_In in HN; auto.
      pose proof (records_columns_used _ _ _ _ HR HP HN) as HC.
      apply index_composition_iff in HI; auto; [|apply HC|eapply columns_used_refcond; eauto].
      exists l, sch. simpl. tauto.
    + intros (s & sch & HC & HS & HCa & HPk).
      destruct (candidate_nonempty _ _ HCa) as ([c ty] & HI1 & HI2).
      assert (Hu : exists ty', In (itt_table x, c, ty') us).
      { apply HC in HI2. destruct HI2 as [[_ HI2]|(_ & HI2 & _)]; eauto. }
      assert (HRC := HR). destruct HRC as (_ & _ & HR3 & _). apply HR3 in Hu. destruct Hu as (ty' & l & Hl & Hcl).
      assert (HI : In (itt_table x, l) (entries ord (path ++ [2]) rf)) by (now apply entries_In).
      apply In_nth_error in HI. destruct HI as [j Hj].
      exists j, (itt_table x, l), sch, (itt_fields x). simpl. split; auto. split; auto. split.
      * pose proof (records_columns_used _ _ _ _ HR HP Hl) as HC'.
        apply index_composition_iff; auto; [apply HC'|eapply columns_used_refcond; eauto|].
        split; auto. eapply candidate_perm; [|eassumption]. eapply columns_used_perm; eauto.
      * destruct x; auto.
Qed.

Lemma build_scopes_spec : forall ord ordf db scs oss k, is_order ord -> is_order ordf ->
    Forall2 (fun sc us => (exists o, means db False sc nothing o us) /\ plain us) scs oss ->
    exists tss, build_scopes ord ordf db k scs = Ok (concat tss) /\
      Forall2 (fun us ts => NoDup ts /\ forall x, In x ts <-> scope_target db us x) oss tss.
Proof.
  intros ord ordf db scs oss k Ho Hof HF. revert k.
  induction HF as [|sc us scs oss [[o HM] HP] HF IH]; intros k; simpl.
  - exists []. split; auto.
  - destruct (build_from_scope_spec ord ordf db [k] sc o us Ho Hof HM HP) as (ts & -> & HN & HI). simpl.
    destruct (IH (S k)) as (tss & -> & HT). simpl. exists (ts :: tss). split; auto.
Qed.
Lemma concat_perm : forall db oss tss tss',
    Forall2 (fun us ts => NoDup ts /\ forall x, In x ts <-> scope_target db us x) oss tss ->
    Forall2 (fun us ts => NoDup ts /\ forall x, In x ts <-> scope_target db us x) oss tss' ->
    Permutation (concat tss) (concat tss').
Proof.
  intros db oss tss tss' H. revert tss'. induction H as [|us ts oss tss [HN HI] HF IH]; intros tss' H'; inversion H'; subst; simpl; auto.
  match goal with HX : NoDup _ /\ _ |- _ => destruct HX as [HN' HI'] end. apply Permutation_app; auto.
  apply NoDup_Permutation; auto. intros x. rewrite HI, HI'. tauto.
Qed.

(** ** Sorting *)
Lemma sort_sound : forall srt l, is_sort itt_less srt -> Permutation (srt l) l /\ sorted_by itt_less (srt l).
Proof. intros srt l H. apply H. Qed.
Lemma srt_same : forall srt srt' l l', is_sort itt_less srt -> is_sort itt_less srt' -> Permutation l l' ->
    map to_index_target (srt l) = map to_index_target (srt' l').
Proof.
  intros srt srt' l l' Hs Hs' HP. destruct (Hs l) as [P1 S1]. destruct (Hs' l') as [P2 S2].
  assert (HK : map itt_key (srt l) = map itt_key (srt' l')).
  { apply (sorted_unique itt_less itt_key); auto.
    - apply itt_less_total.
    - apply itt_less_key.
    - apply itt_less_irrefl.
    - apply Permutation_map. eapply perm_trans; [exact P1|]. eapply perm_trans; [exact HP|]. now apply Permutation_sym. }
  assert (HT : forall l, map to_index_target l = map (fun k => mk_it (fst k) (snd k)) (map itt_key l)).
  { intros. rewrite map_map. apply map_ext. intros [t fs]. reflexivity. }
  rewrite !HT, HK. auto.
Qed.

Lemma names_less_iff : forall a b, length a = length b -> (names_less a b = true <-> cols_lt (map if_name a) (map if_name b)).
Proof.
  induction a as [|x a IH]; intros [|y b] HL; simpl in *; try discriminate.
  - split; [discriminate|]. intros (p & u & v & r & r' & H & _). destruct p; discriminate.
  - injection HL as HL. destruct (seqb_spec (if_name x) (if_name y)) as [E|E].
    + rewrite IH by auto. split.
      * intros (p & u & v & r & r' & H1 & H2 & H3). exists (if_name x :: p), u, v, r, r'. simpl. rewrite H1, H2, E. auto.
      * intros (p & u & v & r & r' & H1 & H2 & H3). destruct p as [|z p]; simpl in *; inversion H1; inversion H2; subst.
        -- rewrite E, sltb_irrefl in H3. discriminate.
        -- exists p, u, v, r, r'. auto.
    + split.
      * intros H. exists [], (if_name x), (if_name y), (map if_name a), (map if_name b). auto.
      * intros (p & u & v & r & r' & H1 & H2 & H3). destruct p as [|z p]; simpl in *; inversion H1; inversion H2; subst; auto; congruence.
Qed.
Lemma itt_less_iff : forall a b, itt_less a b = true <-> target_lt (to_index_target a) (to_index_target b).
Proof.
  intros a b. unfold itt_less, target_lt, to_index_target. simpl. rewrite !map_length.
  destruct (seqb_spec (itt_table a) (itt_table b)) as [E|E]; simpl.
  - rewrite E, sltb_irrefl. destruct (Nat.eqb_spec (length (itt_fields a)) (length (itt_fields b))) as [EL|EL]; simpl.
    + rewrite names_less_iff by auto. split.
      * intros H. right. auto.
      * intros [H|[_ [H|[_ H]]]]; [discriminate|lia|auto].
    + rewrite Nat.ltb_lt. split; [auto|]. intros [H|[_ [H|[H _]]]]; [discriminate|auto|lia].
  - split; [auto|]. intros [H|[H _]]; [auto|congruence].
Qed.
Lemma sorted_targets : forall l, sorted_by itt_less l ->
    StronglySorted (fun a b => ~ target_lt b a) (map to_index_target l).
Proof.
  induction 1 as [|x l HF HS IH]; simpl; constructor; auto.
  apply Forall_forall. intros y Hy. apply in_map_iff in Hy. destruct Hy as (z & <- & Hz).
  rewrite Forall_forall in HF. rewrite <- itt_less_iff, (HF z Hz). discriminate.
Qed.

(** ** No crash *)
Section Panic.
  Context (ord : order gostring) (db : smap table_schema).
  Lemma column_refs_no_panic : forall path i c, column_refs ord path i c <> Panic.
  Proof.
    intros. unfold column_refs.
    assert (HG : match fc_table c with
                 | [] => column_infos ord path i (fc_name c)
                 | _ => do cols <- table_cols i (fc_table c);
                        match find_col (fc_name c) cols with Some r => Ok r | None => Err (no_column (fc_name c)) end
                 end <> Panic).
    { destruct (fc_table c).
      - unfold column_infos. repeat destruct (find_in_tables _ _); try discriminate. destruct (str_in _ _); discriminate.
      - unfold table_cols. destruct (mget _ _) as [nm|]; simpl; [|discriminate].
        destruct (mget (i_int i) nm); simpl; [destruct (find_col _ _); discriminate|].
        destruct (mget (i_ext i) nm); simpl; [destruct (find_col _ _); discriminate|discriminate]. }
    destruct (fc_type c); auto; discriminate.
  Qed.
  Lemma field_cols_no_panic : forall cols path k i rf st, field_cols ord path k i cols rf st <> Panic.
  Proof.
    induction cols as [|c cols IH]; intros; simpl; [discriminate|].
    destruct (column_refs _ _ _ _) eqn:E; simpl; [|discriminate|elim (column_refs_no_panic _ _ _ E)].
    match goal with |- context [field_cols ?a ?b ?c ?d ?e ?f ?g] => pose proof (IH b c d f g) as HX;
      destruct (field_cols a b c d e f g) as [[[? ?] ?]|?|] end; simpl; try discriminate. congruence.
  Qed.
  Lemma fields_loop_no_panic : forall fs path k i rf st, fields_loop ord path k i fs rf st <> Panic.
  Proof.
    induction fs as [|f fs IH]; intros; simpl; [discriminate|].
    pose proof (field_cols_no_panic (f_cols f) (path ++ [k]) 0 i rf st) as HX.
    destruct (field_cols _ _ _ _ _ _ _) as [[[? ?] ?]|?|]; simpl; try discriminate; [|congruence].
    match goal with |- context [fields_loop ?a ?b ?c ?d ?e ?f ?g] => pose proof (IH b c d f g) as HY;
      destruct (fields_loop a b c d e f g) as [[[? ?] ?]|?|] end; simpl; try discriminate. congruence.
  Qed.
  Lemma table_cols_no_panic : forall i a, table_cols i a <> Panic.
  Proof.
    intros. unfold table_cols. destruct (mget _ _) as [nm|]; [|discriminate].
    destruct (mget (i_int i) nm); [discriminate|]. destruct (mget (i_ext i) nm); discriminate.
  Qed.
  Lemma star_cols_no_panic : forall st path k i, star_cols ord path k i st <> Panic.
  Proof.
    induction st as [|s st IH]; intros; simpl; [discriminate|].
    assert (HX : match s with [] => Ok (concat (map snd (entries ord (path ++ [k]) (i_int i)))) | _ => table_cols i s end <> Panic).
    { destruct s; [discriminate|apply table_cols_no_panic]. }
    destruct (match s with [] => _ | _ => _ end); simpl; try discriminate; [|congruence].
    specialize (IH path (S k) i). destruct (star_cols _ _ _ _ st); simpl; try discriminate; congruence.
  Qed.

  Theorem calc_no_panic : forall sc path ext, listed sc -> calc ord db path sc ext <> Panic.
  Proof.
    induction sc as [name fields fscs tables subs IHf IHs] using scope_ind'. intros path ext [HLf HLs]. cbn [calc].
    assert (H1 : forall k i, subs_loop ord (calc ord db) path (table_map tables) k subs i <> Panic).
    { revert HLs. clear IHf HLf. induction IHs as [|s subs Hs HF IH]; intros HL k i; simpl; [discriminate|].
      destruct HL as [[HI HLs] HL]. rewrite table_map_get, last_such_find.
      destruct (find _ (rev tables)) as [t|] eqn:EF.
      - destruct (calc ord db (path ++ [0; k]) s _) eqn:EC; simpl; [|discriminate|elim (Hs _ _ HLs EC)]. apply IH; auto.
      - apply in_map_iff in HI. destruct HI as (t & Ht & HI). apply in_rev in HI. apply (find_none _ _ EF) in HI.
        rewrite Ht, seqb_refl in HI. discriminate. }
    assert (H2 : forall vis k i, field_scopes_loop ord (calc ord db) path vis k fscs i <> Panic).
    { revert HLf. clear IHs HLs H1. induction IHf as [|s fscs Hs HF IH]; intros HL vis k i; simpl; [discriminate|].
      destruct HL as [HLs HL]. destruct (calc ord db (path ++ [2; k]) s vis) eqn:EC; simpl; [|discriminate|elim (Hs _ _ HLs EC)].
      apply IH; auto. }
    destruct (subs_loop _ _ _ _ _ _ _) as [i1|m|] eqn:E1; simpl; [|discriminate|elim (H1 _ _ E1)].
    destruct (field_scopes_loop _ _ _ _ _ _ _) as [i2|m|] eqn:E2; simpl; [|discriminate|elim (H2 _ _ _ E2)].
    destruct (fields_loop _ _ _ _ _ _ _) as [[[outs rf] st]|m|] eqn:E3; simpl; [|discriminate|elim (fields_loop_no_panic _ _ _ _ _ _ E3)].
    unfold list_star. destruct (star_cols _ _ _ _ _) eqn:E4; simpl; [discriminate|discriminate|elim (star_cols_no_panic _ _ _ _ E4)].
  Qed.
End Panic.
Lemma build_from_scope_no_panic : forall ord ordf db path sc, listed sc -> build_from_scope ord ordf db path sc <> Panic.
Proof.
  intros. unfold build_from_scope, table_fields.
  destruct (calc ord db (path ++ [0]) sc []) as [[l rf]|m|] eqn:E; simpl; [|discriminate|elim (calc_no_panic _ _ _ _ _ H E)].
  generalize (entries ord (path ++ [2]) rf) as es. generalize (path ++ [1]) as p1. generalize 0 as k. intros k p1 es. revert k.
  induction es as [|e es IH]; intros k; simpl; [discriminate|]. destruct (mget db (fst e)); [|discriminate].
  specialize (IH (S k)). destruct (scope_targets _ _ _ _ es); simpl; try discriminate; congruence.
Qed.
Lemma build_no_panic : forall ord ordf srt schemas scs, Forall listed scs -> build ord ordf srt schemas scs <> Panic.
Proof.
  intros ord ordf srt schemas scs HF. unfold build.
  assert (HB : forall k, build_scopes ord ordf (schema_map schemas) k scs <> Panic).
  { induction HF as [|sc scs Hs HF IH]; intros k; simpl; [discriminate|].
    pose proof (build_from_scope_no_panic ord ordf (schema_map schemas) [k] sc Hs) as HX.
    destruct (build_from_scope _ _ _ _ sc); simpl; try discriminate; [|congruence].
    specialize (IH (S k)). destruct (build_scopes _ _ _ _ scs); simpl; try discriminate; congruence. }
  specialize (HB 0). destruct (build_scopes _ _ _ _ scs); simpl; try discriminate; congruence.
Qed.

(** ** Everything in a list of scopes *)
Lemma build_scopes_In : forall ord ordf db scs k ts x, build_scopes ord ordf db k scs = Ok ts -> In x ts ->
    exists path sc ts', In sc scs /\ build_from_scope ord ordf db path sc = Ok ts' /\ In x ts'.
Proof.
  induction scs as [|sc scs IH]; intros k ts x H HI; simpl in H.
  - inversion H; subst. destruct HI.
  - destruct (build_from_scope ord ordf db [k] sc) as [t1|m|] eqn:E1; simpl in H; try discriminate.
    destruct (build_scopes ord ordf db (S k) scs) as [t2|m|] eqn:E2; simpl in H; try discriminate.
    inversion H; subst. apply in_app_or in HI. destruct HI as [HI|HI].
    + exists [k], sc, t1. simpl. auto.
    + destruct (IH _ _ _ E2 HI) as (p & sc' & t' & ? & ? & ?). exists p, sc', t'. simpl. auto.
Qed.
