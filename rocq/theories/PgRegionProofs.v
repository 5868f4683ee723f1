(** Walking a supported PostgreSQL statement builds its scope tree. *)
From Coq Require Import String List NArith Bool Lia Arith Permutation.
From Verif Require Import Base Dec IndexText IndexBuild TableFields PgAst PgCollect PgSpec PgProofs PgTreeProofs.
Import ListNotations.

Notation lab := (bool * met)%type.
Definition to_addr (a : address) : addr := match a with ASelect i => SelectAt i | ASubquery i => SubqueryAt i end.
Definition grow (F D : list nat) (c : cell) : cell :=
  mk_cell (cl_name c) (cl_fields c) (cl_fscopes c ++ F) (cl_tables c) (cl_subs c ++ D).
Lemma grow_nil : forall c, grow [] [] c = c. Proof. intros []. unfold grow. simpl. now rewrite !app_nil_r. Qed.
Lemma grow_grow : forall F D F' D' c, grow F' D' (grow F D c) = grow (F ++ F') (D ++ D') c.
Proof. intros. unfold grow. simpl. now rewrite !app_assoc. Qed.
Definition lid (l : lab) : nat := fst (snd (snd l)).
Definition lq (l : lab) : node := snd (snd (snd l)).

Lemma addr_eqb_spec : forall a b, addr_eqb a b = true <-> a = b.
Proof. intros [] []; simpl; try (split; discriminate); rewrite Nat.eqb_eq; split; congruence. Qed.
Lemma trees_of_app : forall norm target nm a b s t, trees_of norm target nm a s -> trees_of norm target nm b t ->
    trees_of norm target nm (a ++ b) (s ++ t).
Proof. intros norm target nm a. induction a as [|x a IH]; intros b s t H H'; inversion H; subst; simpl; auto. constructor; auto. Qed.
Lemma dens_app : forall h p a b s t, dens h p a s -> dens h p b t -> dens h p (a ++ b) (s ++ t).
Proof. intros h p a. induction a as [|x a IH]; intros b s t H H'; inversion H; subst; simpl; auto. constructor; auto. Qed.
Lemma dens_agree : forall h h' p l s, dens h p l s -> (forall j c, p < j -> nth_error h j = Some c -> nth_error h' j = Some c) -> dens h' p l s.
Proof.
  intros h h' p l. induction l as [|x l IH]; intros s H HA; inversion H; subst; constructor; auto.
  eapply den_agree; eauto. intros j c Hj. apply HA. lia.
Qed.

Section Pg.
  Context (norm : gostring -> gostring) (target : gostring).
  Notation trees_of := (trees_of norm target).
  Notation walk := (walk (enter_scope norm target) leave_scope).
  Notation walk_all := (walk_all (enter_scope norm target) leave_scope).

  Record pre_ok (ls : list lab) (A : list address) (c : collector) (p : nat) : Prop := mk_pre {
    pr_stack : exists a st, c_stack c = (a, p) :: st /\ forall ad, In ad A -> to_addr ad <> a;
    pr_bound : p < length (c_heap c);
    pr_scopes : c_scopes c <> [];
    pr_last : es_last (c_es c) = None;
    pr_labels : forall l, In l ls -> supported norm target (lq l) /\
      exists x, fget (es_found (c_es c)) (lid l) = Some (x, if fst l then Some p else None);
    pr_nodup : NoDup A;
    pr_met : forall l, In l ls -> In (ASelect (lid l)) A;
    pr_fresh : forall i, In (ASelect i) A -> (exists l, In l ls /\ lid l = i) \/ fresh (c_es c) i;
    pr_named : named (c_es c) }.
  Record post_ok (ls : list lab) (A : list address) (c : collector) (p : nat) (c' : collector) (F D : list nat) : Prop := mk_post {
    po_stack : c_stack c' = c_stack c;
    po_scopes : c_scopes c' = c_scopes c;
    po_errors : c_errors c' = c_errors c;
    po_last : es_last (c_es c') = None;
    po_ext : ext (c_es c) (c_es c');
    po_new : forall i, fresh (c_es c) i -> ~ In (ASelect i) A -> fresh (c_es c') i;
    po_named : named (c_es c');
    po_length : length (c_heap c) <= length (c_heap c');
    po_other : forall i, i < length (c_heap c) -> i <> p -> nth_error (c_heap c') i = nth_error (c_heap c) i;
    po_owner : nth_error (c_heap c') p = option_map (grow F D) (nth_error (c_heap c) p);
    po_tree : forall nm, agrees nm (c_es c') -> exists fs ss, dens (c_heap c') p F fs /\ dens (c_heap c') p D ss /\
      trees_of nm (lx ls) fs /\ trees_of nm (lf ls) ss }.

  Definition region (n : node) : Prop := forall ls A c p u, meets n (map snd ls) -> addresses n A -> pre_ok ls A c p ->
    exists c' F D, walk n c u = Ok (c', u) /\ post_ok ls A c p c' F D.
  Definition region_all (ns : list node) : Prop := forall ls A c p u, meets_all ns (map snd ls) -> addresses_all ns A -> pre_ok ls A c p ->
    exists c' F D, walk_all ns c u = Ok (c', u) /\ post_ok ls A c p c' F D.

  Lemma met_in : forall n ls A, meets n (map snd ls) -> addresses n A -> forall l, In l ls -> In (ASelect (lid l)) A.
  Proof.
    intros n ls A HM HA l Hl. destruct (meets_addresses _ _ _ HM HA) as [r HP].
    eapply Permutation_in; [symmetry; exact HP|]. apply in_or_app. left. unfold met_addresses. rewrite map_map. apply in_map_iff. exists l. auto.
  Qed.
  Lemma met_all_in : forall n ls A, meets_all n (map snd ls) -> addresses_all n A -> forall l, In l ls -> In (ASelect (lid l)) A.
  Proof.
    intros n ls A HM HA l Hl. destruct (meets_all_addresses _ _ _ HM HA) as [r HP].
    eapply Permutation_in; [symmetry; exact HP|]. apply in_or_app. left. unfold met_addresses. rewrite map_map. apply in_map_iff. exists l. auto.
  Qed.

  Lemma post_refl : forall A c p, es_last (c_es c) = None -> named (c_es c) -> post_ok [] A c p c [] [].
  Proof.
    intros A c p HL HN. constructor; auto.
    - apply ext_refl.
    - destruct (nth_error (c_heap c) p) as [x|]; simpl; auto. now rewrite grow_nil.
    - intros nm _. exists [], []. split; [constructor|]. split; [constructor|]. split; constructor.
  Qed.
  Lemma region_list : forall ns, (forall n, In n ns -> region n) -> region_all ns.
  Proof.
    induction ns as [|n ns IH]; intros HR ls A c p u HM HA HP.
    - inversion HM; subst. destruct ls; [|discriminate]. exists c, [], []. split; auto. apply post_refl; apply HP.
    - inversion HM; subst. match goal with X : _ ++ _ = map snd ls |- _ => symmetry in X; apply map_eq_app in X; destruct X as (l1 & l2 & -> & <- & <-) end. inversion HA as [|n' ns' A1 A2]; subst.
      match goal with X : meets n _ |- _ => rename X into M1 end. match goal with X : meets_all ns _ |- _ => rename X into M2 end.
      match goal with X : addresses n _ |- _ => rename X into N1 end. match goal with X : addresses_all ns _ |- _ => rename X into N2 end.
      destruct HP as [(a & st & HS & HSA) HB HSc HL HLb HN HMt HF HNm].
      assert (P1 : pre_ok l1 A1 c p).
      { constructor; auto.
        - exists a, st. split; auto. intros; apply HSA, in_or_app; auto.
        - intros; apply HLb, in_or_app; auto.
        - eapply NoDup_app_l; eauto.
        - apply (met_in n); auto.
        - intros i Hi. destruct (HF i) as [(l & Hl & El)|Hf]; [apply in_or_app; auto| |auto]. apply in_app_or in Hl. destruct Hl as [Hl|Hl]; eauto.
          exfalso. subst i. apply (NoDup_app_disj _ _ _ _ HN Hi). apply (met_all_in ns l2); auto. }
      destruct (HR n (or_introl eq_refl) l1 A1 c p u M1 N1 P1) as (c1 & F1 & D1 & W1 & Q1).
      assert (P2 : pre_ok l2 A2 c1 p).
      { constructor.
        - exists a, st. rewrite (po_stack _ _ _ _ _ _ _ Q1). split; auto. intros; apply HSA, in_or_app; auto.
        - pose proof (po_length _ _ _ _ _ _ _ Q1). lia.
        - now rewrite (po_scopes _ _ _ _ _ _ _ Q1).
        - apply Q1.
        - intros l Hl. destruct (HLb l) as (S1 & x & Hx); [apply in_or_app; auto|]. split; auto. exists x. now apply (po_ext _ _ _ _ _ _ _ Q1).
        - eapply NoDup_app_r; eauto.
        - apply (met_all_in ns); auto.
        - intros i Hi. destruct (HF i) as [(l & Hl & El)|Hf]; [apply in_or_app; auto| |].
          + apply in_app_or in Hl. destruct Hl as [Hl|Hl]; eauto.
            exfalso. subst i. apply (NoDup_app_disj _ _ _ _ HN) with (2 := Hi). apply (met_in n l1); auto.
          + right. apply (po_new _ _ _ _ _ _ _ Q1); auto. intros Hi'. apply (NoDup_app_disj _ _ _ _ HN Hi' Hi).
        - apply Q1. }
      destruct (IH (fun k Hk => HR k (or_intror Hk)) l2 A2 c1 p u M2 N2 P2) as (c2 & F2 & D2 & W2 & Q2).
      exists c2, (F1 ++ F2), (D1 ++ D2). simpl. rewrite W1. cbn [obind fst snd]. split; auto.
      destruct Q1, Q2. constructor; try congruence.
      + eapply ext_trans; eauto.
      + intros i H1 H2. apply po_new1; [apply po_new0|]; auto; intros H3; apply H2, in_or_app; auto.
      + lia.
      + intros i Hi Hp. rewrite po_other1 by (auto; lia). auto.
      + rewrite po_owner1, po_owner0. destruct (nth_error (c_heap c) p); simpl; auto. now rewrite grow_grow.
      + intros nm HAg. destruct (po_tree0 nm) as (f1 & s1 & X1 & X2 & X3 & X4); [eapply ext_agrees; eauto|].
        destruct (po_tree1 nm HAg) as (f2 & s2 & Y1 & Y2 & Y3 & Y4).
        assert (HX : forall j x, p < j -> nth_error (c_heap c1) j = Some x -> nth_error (c_heap c2) j = Some x).
        { intros j x Hj Hx. rewrite po_other1; auto; [|lia]. apply nth_error_Some. congruence. }
        exists (f1 ++ f2), (s1 ++ s2). rewrite lx_app, lf_app. split; [|split; [|split]].
        * apply dens_app; auto. eapply dens_agree; eauto.
        * apply dens_app; auto. eapply dens_agree; eauto.
        * now apply trees_of_app.
        * now apply trees_of_app.
  Qed.
  Lemma pre_sub : forall ls A B c p, (forall x, In x B -> In x A) -> NoDup B -> (forall l, In l ls -> In (ASelect (lid l)) B) ->
      pre_ok ls A c p -> pre_ok ls B c p.
  Proof.
    intros ls A B c p HI HN HM [(a & st & HS & HSA) HB HSc HL HLb _ HMt HF HNm]. constructor; auto. exists a, st. auto.
  Qed.
  Lemma post_sub : forall ls A B c p c' F D, (forall x, In x B -> In x A) -> post_ok ls B c p c' F D -> post_ok ls A c p c' F D.
  Proof. intros ls A B c p c' F D HI []. constructor; auto. Qed.

  (** Registered and met subqueries *)
  Lemma labels_registered : forall (ls : list lab) (rs : list reg), Permutation (lx ls) (in_exprs rs) -> lf ls = in_from rs ->
      Permutation (map lid ls) (reg_ids rs) /\ forall l, In l ls -> In (fst l, (lid l, lq l)) rs.
  Proof.
    intros ls rs HX HF.
    assert (HS : forall (T : Type) (f : bool * T -> bool) (l : list (bool * T)), Permutation l (filter f l ++ filter (fun x => negb (f x)) l)).
    { induction l as [|x l IH]; simpl; auto. destruct (f x); simpl; [now constructor|]. apply Permutation_cons_app. auto. }
    split.
    - rewrite (HS _ fst ls) at 1. rewrite map_app.
      assert (E1 : map lid (filter fst ls) = map fst (lx ls)) by (unfold lx; rewrite map_map; reflexivity).
      assert (E2 : map lid (filter (fun x => negb (fst x)) ls) = map fst (lf ls)) by (unfold lf; rewrite map_map; reflexivity).
      rewrite E1, E2, HF, HX. unfold reg_ids. rewrite (HS _ fst rs) at 3. rewrite map_app. unfold in_exprs, in_from. rewrite !map_map. apply Permutation_refl.
    - intros [b [sid [id q]]] Hl. unfold lid, lq. simpl. destruct b.
      + assert (HI : In (id, q) (in_exprs rs)).
        { eapply Permutation_in; [exact HX|]. unfold lx. apply in_map_iff. exists (true, (sid, (id, q))). split; auto. apply filter_In. auto. }
        unfold in_exprs in HI. apply in_map_iff in HI. destruct HI as ([b r] & Hr & Hi). simpl in Hr. subst r. apply filter_In in Hi. simpl in Hi.
        destruct Hi as [Hi ->]. auto.
      + assert (HI : In (id, q) (in_from rs)).
        { rewrite <- HF. unfold lf. apply in_map_iff. exists (false, (sid, (id, q))). split; auto. apply filter_In. auto. }
        unfold in_from in HI. apply in_map_iff in HI. destruct HI as ([b r] & Hr & Hi). simpl in Hr. subst r. apply filter_In in Hi. simpl in Hi.
        destruct Hi as [Hi Hb]. destruct b; [discriminate|auto].
  Qed.
  Lemma fine_good : forall e, fine target e -> good target e.
  Proof. intros e H m Hm. destruct (H m Hm) as (H1 & H2 & _). auto. Qed.
  Lemma clause_subqueries_fun : forall its q q', Forall2 clause_subqueries its q -> Forall2 clause_subqueries its q' -> q = q'.
  Proof.
    induction its as [|i its IH]; intros q q' H H'; inversion H; subst; inversion H'; subst; auto. f_equal; auto.
    repeat match goal with X : clause_subqueries _ _ |- _ => destruct X as (? & ? & ->) end. f_equal. eapply occurs_fun; eauto.
  Qed.
  Lemma in_concat_sub : forall its qss id q, Forall2 clause_subqueries its qss -> In (id, q) (concat qss) ->
      exists i ms, In i its /\ occurs (snd i) ms /\ In (MSub id q) ms.
  Proof.
    intros its qss id q H. induction H as [|i qs its qss (ms & Hm & ->) _ IH]; intros HI; [destruct HI|]. simpl in HI. apply in_app_or in HI. destruct HI as [HI|HI].
    - exists i, ms. split; [now left|]. split; auto. unfold subqueries in HI. apply in_flat_map in HI. destruct HI as (m & Hm' & Hi). destruct m; try destruct Hi; try contradiction.
      inversion H; subst. auto.
    - destruct (IH HI) as (j & ms' & K1 & K2). exists j, ms'. split; auto. now right.
  Qed.

  (** Collecting a supported SELECT into the fresh cell on top of the stack and
      walking through its parts *)
  Lemma core : forall id w b o l, supported norm target (Select id w b o l) ->
      (forall k, In k (kids (Select id w b o l)) -> region k) ->
      forall A c0 here name a st errs u,
      addresses_all (children (Select id w b o l)) A -> NoDup A ->
      (forall ad, In ad A -> to_addr ad <> a) ->
      (forall i, In (ASelect i) A -> fresh (c_es c0) i) ->
      es_last (c_es c0) = None -> named (c_es c0) ->
      nth_error (c_heap c0) here = Some (new_cell name) -> c_errors c0 = errs ->
      (exists xs fr wh hv d g win, b = SelectClause xs fr wh hv d g win) /\
      exists tables fields es1, collect_select norm target (Some here) w b o l errs (c_es c0) = Ok ((tables, fields), errs, es1) /\
      ext (c_es c0) es1 /\
      let c1 := mk_coll (update here (fill fields tables) (c_heap c0)) (match c_scopes c0 with [] => [here] | s => s end) errs ((a, here) :: st) es1 in
      exists c2, walk_all (kids (Select id w b o l)) c1 u = Ok (c2, u) /\
        c_stack c2 = c_stack c1 /\ c_scopes c2 = c_scopes c1 /\ c_errors c2 = errs /\ es_last (c_es c2) = None /\
        ext (c_es c0) (c_es c2) /\ (forall i, fresh (c_es c0) i -> ~ In (ASelect i) A -> fresh (c_es c2) i) /\ named (c_es c2) /\
        length (c_heap c0) <= length (c_heap c2) /\
        (forall i, i < length (c_heap c0) -> i <> here -> nth_error (c_heap c2) i = nth_error (c_heap c0) i) /\
        forall nm, agrees nm (c_es c2) -> exists sc, den (c_heap c2) here sc /\ tree_of norm target nm name (Select id w b o l) sc.
  Proof.
    intros id w b o l HS HR A c0 here name a st errs u HA HN Ha HF HL HNm Hh HE.
    inversion HS; subst. match goal with X : from_items _ _ _ _ _ _ |- _ => rename X into Hfi end. split; [eexists _, _, _, _, _, _, _; reflexivity|].
    destruct (meeting_select norm target id xs a0 froms wh hv g o l sss es ds) as (ls & L1 & L2 & qss & L3 & L4); auto.
    destruct (collect_select_ok norm target xs a0 froms wh hv [] g o l sss es ds) with (top := Some here) (errs := c_errors c0) (es := c_es c0)
      as (ts & fs & rs & E & C & D & N); auto.
    { match goal with X : optional _ o |- _ => rename X into HO end. destruct HO as [->|(os & -> & Hos)]; auto. right. exists os. split; auto. intros x Hx. destruct (Hos x Hx) as (e & t & -> & _). eauto. }
    { match goal with X : optional _ l |- _ => rename X into HO end. destruct HO as [->|(cc & off & -> & _)]; eauto. }
    { intros i Hi. apply fine_good. auto. }
    destruct C as [C1 (qss' & C2 & C3)]. assert (qss' = qss) by (eapply clause_subqueries_fun; eauto). subst qss'.
    destruct (labels_registered ls rs) as [R1 R2]; [now rewrite L4, C3|congruence|].
    destruct (kids_addresses _ _ HA) as (B & r & HB & HPm).
    assert (HBA : forall x, In x B -> In x A) by (intros x Hx; eapply Permutation_in; [symmetry; exact HPm|]; apply in_or_app; auto).
    assert (HNB : NoDup B) by (eapply NoDup_app_l; eapply Permutation_NoDup; eauto).
    assert (HMB : forall l, In l ls -> In (ASelect (lid l)) B) by (apply (met_all_in (kids (Select id Nil (SelectClause (SelectExprs xs) (From a0 froms) wh hv [] g false) o l))); auto).
    assert (HNr : NoDup (reg_ids rs)).
    { apply (Permutation_NoDup R1). destruct (meets_all_addresses _ _ _ L1 HB) as [r' HP']. apply (Permutation_NoDup HP') in HNB. apply NoDup_app_l in HNB.
      unfold met_addresses in HNB. rewrite map_map in HNB. change (map (fun x => ASelect (fst (snd (snd x)))) ls) with (map (fun x => ASelect (lid x)) ls) in HNB.
      rewrite <- (map_map lid ASelect) in HNB. eapply NoDup_map_inv; eauto. }
    assert (HFr : forall i, In i (reg_ids rs) -> fresh (c_es c0) i).
    { intros i Hi. apply HF, HBA. apply (Permutation_in _ (Permutation_sym R1)) in Hi. apply in_map_iff in Hi. destruct Hi as (m & <- & Hm). auto. }
    set (es1 := regl (Some here) rs (c_es c0)) in *.
    eexists _, _, _. split; [exact E|]. split; [now apply regl_ext|]. cbv zeta.
    set (c1 := mk_coll _ _ _ _ es1).
    assert (HX1 : forall c2 F D, post_ok ls B c1 here c2 F D -> ext (c_es c0) (c_es c2)).
    { intros c2 F' D' Q. eapply ext_trans; [|apply Q]. now apply regl_ext. }
    assert (P1 : pre_ok ls B c1 here).
    { constructor.
      - exists a, st. split; auto.
      - simpl. rewrite update_length. apply nth_error_Some. congruence.
      - simpl. destruct (c_scopes c0); discriminate.
      - simpl. unfold es1. now rewrite regl_last.
      - intros m Hm. split.
        + destruct m as [mb [ms [mi mq]]]. unfold lq. simpl. specialize (R2 _ Hm). unfold lid, lq in R2. simpl in R2. destruct mb.
          * assert (HI : In (mi, mq) (concat qss)) by (rewrite <- C3; unfold in_exprs; apply in_map_iff; exists (true, (mi, mq)); split; auto; apply filter_In; auto).
            destruct (in_concat_sub _ _ _ _ L3 HI) as (i & mm & K1 & K2 & K3). eauto.
          * assert (HI : In (mi, mq) ds) by (rewrite <- D; unfold in_from; apply in_map_iff; exists (false, (mi, mq)); split; auto; apply filter_In; auto).
            eauto.
        + simpl. unfold es1. eapply regl_get; eauto.
      - auto.
      - auto.
      - intros i Hi. destruct (in_dec Nat.eq_dec i (reg_ids rs)) as [Hr|Hr].
        + left. apply (Permutation_in _ (Permutation_sym R1)) in Hr. apply in_map_iff in Hr. destruct Hr as (m & <- & Hm). eauto.
        + right. simpl. unfold fresh, es1. rewrite regl_other by auto. apply HF. auto.
      - simpl. now apply named_regl. }
    destruct (region_list _ HR ls B c1 here u L1 HB P1) as (c2 & F & DD & W & Q).
    exists c2. split; [exact W|]. specialize (HX1 _ _ _ Q). destruct Q. simpl in *. rewrite update_length in *.
    split; auto. split; auto. split; auto. split; auto. split; auto. split; [|split; [auto|split; [auto|split]]].
    - intros i Hi HiA. apply po_new0; auto. unfold fresh, es1. rewrite regl_other; auto. intros Hr.
      apply HiA. apply HBA. apply (Permutation_in _ (Permutation_sym R1)) in Hr. apply in_map_iff in Hr. destruct Hr as (m & <- & Hm). auto.
    - intros i Hi Hhe. rewrite po_other0 by auto. apply update_other. auto.
    - intros nm HAg. destruct (po_tree0 nm HAg) as (f & s & T1 & T2 & T3 & T4).
      assert (HAg1 : agrees nm es1) by (eapply ext_agrees; eauto).
      rewrite update_same, Hh in po_owner0. simpl in po_owner0.
      eexists. split.
      + eapply den_cell; [exact po_owner0|exact T1|exact T2].
      + simpl. rewrite (N nm HAg1 HNr HFr). eapply tree_select with (qss := qss); eauto. now rewrite L2 in T4.
  Qed.

  Lemma addresses_inv : forall n A, addresses n A -> exists l, A = own_address n ++ l /\ addresses_all (children n) l.
  Proof. intros n A H. inversion H; subst. eauto. Qed.
  Lemma addresses_all_1 : forall n A, addresses_all [n] A -> addresses n A.
  Proof. intros n A H. inversion H; subst. match goal with X : addresses_all [] _ |- _ => inversion X end. now rewrite app_nil_r. Qed.
  Lemma fget_ext : forall es es' i x, ext es es' -> fget (es_found es) i = Some x -> fget (es_found es') i = Some x.
  Proof. auto. Qed.
  Lemma new_scope_other : forall n c, match n with Subquery _ _ | Select _ _ _ _ _ => False | _ => True end -> new_scope n c = None.
  Proof. intros n c H. destruct n; try reflexivity; destruct H. Qed.
  Lemma region_any : forall n, region n.
  Proof.
    apply (node_sind region). intros n IH ls A c p u HM HA HP.
    assert (IHk : forall k m, In k (children n) -> within k m -> region m) by eauto.
    inversion HM as [sid id w b o l E1 E2|m ms Hk1 Hk2 Hk3 E1 E2].
    - subst n. symmetry in E2. destruct ls as [|[lb [s' [i' q']]] [|]]; try discriminate. simpl in E2. inversion E2; subst s' i' q'. clear E2.
      destruct HP as [(a & st & HS & HSA) HB HSc HL HLb HN HMt HF HNm].
      destruct (HLb _ (or_introl eq_refl)) as (HSup & x & Hx). unfold lq, lid in *. simpl in HSup, Hx.
      apply addresses_inv in HA. destruct HA as (A1 & -> & HA). simpl in HA. apply addresses_all_1, addresses_inv in HA.
      destruct HA as (A2 & -> & HA). simpl in HA. apply addresses_all_1, addresses_inv in HA. destruct HA as (A3 & -> & HA). cbn [own_address app lid fst snd] in *.
      set (q := Select id w b o l) in *.
      assert (HRk : forall k, In k (kids q) -> region k).
      { intros k Hk. apply (IHk (ParenSelect q) k); [now left|]. eapply within_child; [now left|]. eapply within_child; [apply kids_children; exact Hk|constructor]. }
      inversion HN as [|? ? N1 N2]; subst. inversion N2 as [|? ? N3 N4]; subst.
      assert (HFr : forall i, In (ASelect i) A3 -> fresh (c_es c) i).
      { intros i Hi. destruct (HF i) as [(l' & Hl' & El)|Hf]; [now do 2 right| |auto]. simpl in Hl'. destruct Hl' as [<-|[]]. simpl in El. subst. contradiction. }
      set (here := length (c_heap c)).
      assert (HPh : forall (f : cell -> cell) y, nth_error (update p f (c_heap c) ++ [y]) here = Some y).
      { intros f y. unfold here. rewrite <- (update_length f (c_heap c) p). apply nth_error_app_last. }
      assert (HOw : forall (f : cell -> cell) y, nth_error (update p f (c_heap c) ++ [y]) p = option_map f (nth_error (c_heap c) p)).
      { intros f y. rewrite nth_error_app1 by (now rewrite update_length). apply update_same. }
      assert (HOt : forall (f : cell -> cell) y i, i < here -> i <> p -> nth_error (update p f (c_heap c) ++ [y]) i = nth_error (c_heap c) i).
      { intros f y i Hi Hne. rewrite nth_error_app1 by (now rewrite update_length). apply update_other. auto. }
      destruct lb.
      + (* a subquery of an expression *)
        set (c0 := mk_coll (update p (add_fscope here) (c_heap c) ++ [new_cell x]) (c_scopes c) (c_errors c) (c_stack c) (c_es c)).
        destruct (core id w b o l HSup HRk A3 c0 here x (SubqueryAt sid) (c_stack c) (c_errors c) u) as ((xs & fr & wh & hv & d & g & win & Hb) & ts & fs & es1 & E & HE1 & c2 & W & K1 & K2 & K3 & K4 & K5 & K6 & K7 & K8 & K9 & K10); auto.
        { intros [i|i] Hi; simpl; [discriminate|]. intros X. inversion X; subst. apply N1. now right. }
        { apply HPh. }
        assert (HS1 : forall cc, fget (es_found (c_es cc)) id = Some (x, Some p) -> new_scope q cc = None).
        { intros cc Hcc. unfold q. simpl. now rewrite Hcc. }
        exists (mk_coll (c_heap c2) (c_scopes c2) (c_errors c2) (c_stack c) (c_es c2)), [here], [].
        split.
        * rewrite walk_kids. unfold enter_scope at 1. cbn [new_scope]. unfold q at 1. rewrite Hx. fold here. fold c0. rewrite Hb. cbn [addr_of].
          rewrite <- Hb. change (c_errors c0) with (c_errors c). rewrite E. cbn [obind].
          cbn [kids]. rewrite walk_all_1, walk_kids. unfold enter_scope at 1. rewrite new_scope_other by exact I. cbn [obind].
          cbn [kids]. rewrite walk_all_1, walk_kids. unfold enter_scope at 1. rewrite HS1 by (apply HE1; exact Hx). cbn [obind].
          unfold with_unknown. change (known q) with true. cbn [known]. change (c_stack c0) with (c_stack c). fold q in W. rewrite W. cbn [obind fst snd].
          unfold leave_scope. rewrite K1. cbn [c_stack addr_of q addr_eqb obind fst snd]. rewrite K1. cbn [c_stack obind fst snd]. rewrite K1. cbn [c_stack].
          cbn [addr_eqb addr_of]. rewrite Nat.eqb_refl. cbn [obind fst snd]. reflexivity.
        * assert (HLc : length (c_heap c0) = S here) by (unfold c0, here; simpl; rewrite app_length, update_length; simpl; lia).
          constructor; simpl; auto.
          -- rewrite K2. simpl. destruct (c_scopes c); [congruence|reflexivity].
          -- intros i Hi Hn. apply K6; auto.
          -- fold here. lia.
          -- intros i Hi Hne. fold here in Hi. rewrite K9 by lia. unfold c0. simpl. apply HOt; auto.
          -- fold here in HB. rewrite K9 by lia. unfold c0. simpl. rewrite HOw. destruct (nth_error (c_heap c) p) as [y|]; simpl; auto.
             unfold add_fscope, grow. now rewrite app_nil_r.
          -- intros nm HAg. destruct (K10 nm HAg) as (sc & T1 & T2). exists [sc], []. split; [constructor; [exact HB|exact T1|constructor]|].
             split; [constructor|]. split; [|constructor]. constructor; [|constructor]. simpl. rewrite (HAg id x (Some p)); auto.
      + (* a derived table *)
        set (c0 := mk_coll (update p (add_sub here) (c_heap c) ++ [new_cell x]) (c_scopes c) (c_errors c) (c_stack c) (c_es c)).
        destruct (core id w b o l HSup HRk A3 c0 here x (SelectAt id) (c_stack c) (c_errors c) u) as ((xs & fr & wh & hv & d & g & win & Hb) & ts & fs & es1 & E & HE1 & c2 & W & K1 & K2 & K3 & K4 & K5 & K6 & K7 & K8 & K9 & K10); auto.
        { intros [i|i] Hi; simpl; [|discriminate]. intros X. inversion X; subst. contradiction. }
        { apply HPh. }
        exists (mk_coll (c_heap c2) (c_scopes c2) (c_errors c2) (c_stack c) (c_es c2)), [], [here].
        split.
        * rewrite walk_kids. unfold enter_scope at 1. cbn [new_scope]. unfold q at 1. rewrite Hx. cbn [obind].
          cbn [kids]. rewrite walk_all_1, walk_kids. unfold enter_scope at 1. rewrite new_scope_other by exact I. cbn [obind].
          cbn [kids]. rewrite walk_all_1, walk_kids. unfold enter_scope at 1. unfold q at 1. cbn [new_scope]. rewrite Hx. unfold top_scope. rewrite HS.
          fold here. fold c0. rewrite Hb. cbn [addr_of]. rewrite <- Hb. rewrite <- HS. fold c0. change (c_errors c0) with (c_errors c). rewrite E. cbn [obind].
          change (addr_of q) with (Some (SelectAt id)). cbn [obind]. unfold with_unknown. change (known q) with true. cbn [known]. change (c_stack c0) with (c_stack c). fold q in W. rewrite W. cbn [obind fst snd].
          unfold leave_scope. rewrite K1. cbn [c_stack addr_of q addr_eqb obind fst snd]. rewrite Nat.eqb_refl. cbn [c_stack obind fst snd]. rewrite HS.
          cbn [obind fst snd c_stack]. destruct (addr_eqb a (SubqueryAt sid)) eqn:EA; [|reflexivity].
          apply addr_eqb_spec in EA. elim (HSA (ASubquery sid)); [now left|auto].
        * assert (HLc : length (c_heap c0) = S here) by (unfold c0, here; simpl; rewrite app_length, update_length; simpl; lia).
          constructor; simpl; auto.
          -- rewrite K2. simpl. destruct (c_scopes c); [congruence|reflexivity].
          -- intros i Hi Hn. apply K6; auto.
          -- fold here. lia.
          -- intros i Hi Hne. fold here in Hi. rewrite K9 by lia. unfold c0. simpl. apply HOt; auto.
          -- fold here in HB. rewrite K9 by lia. unfold c0. simpl. rewrite HOw. destruct (nth_error (c_heap c) p) as [y|]; simpl; auto.
             unfold add_sub, grow. now rewrite app_nil_r.
          -- intros nm HAg. destruct (K10 nm HAg) as (sc & T1 & T2). exists [], [sc]. split; [constructor|]. split; [constructor; [exact HB|exact T1|constructor]|].
             split; [constructor|]. constructor; [|constructor]. simpl. rewrite (HAg id x None); auto.
    - subst. apply addresses_inv in HA. destruct HA as (A1 & -> & HA). destruct (kids_addresses _ _ HA) as (B & r & HBk & HPm).
      assert (HO : own_address n = []) by (destruct n; auto; destruct Hk1). rewrite HO in *. simpl in HP.
      assert (HBA : forall x, In x B -> In x A1) by (intros x Hx; eapply Permutation_in; [symmetry; exact HPm|]; apply in_or_app; auto).
      assert (HNB : NoDup B) by (eapply NoDup_app_l; eapply Permutation_NoDup; [exact HPm|]; apply HP).
      destruct (region_list (kids n)) with (ls := ls) (A := B) (c := c) (p := p) (u := u) as (c' & F & D & W & Q); auto.
      { intros k Hk. apply (IHk k k); [now apply kids_children|constructor]. }
      { eapply pre_sub; eauto. apply (met_all_in (kids n)); auto. }
      exists c', F, D. rewrite walk_kids. unfold enter_scope at 1. rewrite new_scope_other by auto. cbn [obind]. unfold with_unknown. rewrite Hk2, W. cbn [obind fst snd].
      split; [|simpl; eapply post_sub; eauto].
      unfold leave_scope. destruct (pr_stack _ _ _ _ HP) as (a & st & HS & _). rewrite (po_stack _ _ _ _ _ _ _ Q), HS.
      destruct n; try reflexivity; destruct Hk1.
  Qed.
End Pg.

(** ** The whole statement *)
Definition name_of (es : estate) (i : nat) : gostring :=
  match fget (es_found es) i with Some (x, _) => x | None => lit "#" ++ dec_of_N (N.of_nat i) end.
Lemma name_of_agrees : forall es, agrees (name_of es) es.
Proof. intros es i x o H. unfold name_of. now rewrite H. Qed.
Lemma name_of_inj : forall es, named es -> forall i j, name_of es i = name_of es j -> i = j.
Proof.
  intros es [H1 H2] i j. unfold name_of. destruct (fget (es_found es) i) as [[x o]|] eqn:Ei, (fget (es_found es) j) as [[y o']|] eqn:Ej; intros E.
  - subst. eauto.
  - destruct (H1 _ _ _ Ei) as (b & k & -> & _). discriminate.
  - destruct (H1 _ _ _ Ej) as (b & k & -> & _). discriminate.
  - inversion E as [E']. apply dec_of_N_inj in E'. lia.
Qed.
Lemma name_of_root : forall es, named es -> forall i, name_of es i <> lit "<root>".
Proof.
  intros es [H1 H2] i. unfold name_of. destruct (fget (es_found es) i) as [[x o]|] eqn:Ei; [|discriminate].
  destruct (H1 _ _ _ Ei) as ([] & k & -> & _); discriminate.
Qed.
Lemma root_tree : forall norm target root, supported norm target root -> distinct root ->
    exists nm sc, (forall i j, nm i = nm j -> i = j) /\ (forall i, nm i <> lit "<root>") /\
      collect_scopes norm target root = Ok (inl [sc]) /\ tree_of norm target nm (lit "<root>") root sc.
Proof.
  intros norm target root HS HD. assert (HS0 := HS). inversion HS; subst. clear HS.
  set (q := Select id Nil (SelectClause (SelectExprs xs) (From a froms) wh hv [] g false) o l) in *.
  destruct (addresses_total q) as [A HA]. specialize (HD A HA). apply addresses_inv in HA. destruct HA as (A1 & -> & HA).
  inversion HD as [|? ? N1 N2]; subst.
  set (c0 := mk_coll [new_cell (lit "<root>")] [] [] [] (mk_es None [] [])).
  destruct (core norm target id Nil (SelectClause (SelectExprs xs) (From a froms) wh hv [] g false) o l HS0) with
    (A := A1) (c0 := c0) (here := 0) (name := lit "<root>") (a := SelectAt id) (st := @nil (addr * nat)) (errs := @nil gostring) (u := @nil node)
    as (_ & ts & fs & es1 & E & HE1 & c2 & W & K1 & K2 & K3 & K4 & K5 & K6 & K7 & K8 & K9 & K10); auto.
  - intros; apply region_any.
  - intros [i|i] Hi; simpl; [|discriminate]. intros X. inversion X; subst. contradiction.
  - intros; reflexivity.
  - split; intros; discriminate.
  - destruct (K10 (name_of (c_es c2)) (name_of_agrees _)) as (sc & T1 & T2).
    exists (name_of (c_es c2)), sc. split; [now apply name_of_inj|]. split; [now apply name_of_root|]. split; auto.
    unfold collect_scopes, q. fold q. rewrite walk_kids. unfold enter_scope at 1, new_scope, q. cbn [c_es es_found fget top_scope c_stack c_heap app length c_scopes c_errors addr_of].
    fold c0. cbn [c_scopes c_heap c_errors c_stack c_es] in E. unfold c0 in E. cbn [c_es] in E. rewrite E. cbn [obind].
    unfold with_unknown. cbn [known]. fold q. fold q in W. unfold c0 in W. cbn [c_heap c_scopes c0] in W. rewrite W. cbn [obind fst snd].
    unfold leave_scope. rewrite K1. cbn [c_stack q addr_of addr_eqb]. rewrite Nat.eqb_refl. cbn [obind fst snd map c_errors c_heap c_scopes].
    rewrite K3, K2. cbn [c_scopes c0 map]. erewrite den_read; [reflexivity|exact T1|lia].
Qed.
