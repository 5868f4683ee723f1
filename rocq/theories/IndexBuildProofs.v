From Coq Require Import String List NArith Bool Lia Arith Permutation.
From Verif Require Import Base IndexText IndexBuild IndexBuildSpec.
Import ListNotations.

(** ** mapi *)
Lemma mapi_from_In : forall {A B} (f : nat -> A -> B) l i y,
    In y (mapi_from i f l) <-> exists j x, nth_error l j = Some x /\ y = f (i + j) x.
Proof.
  induction l as [|a l IH]; intros i y; simpl.
  - split; [tauto|]. intros (j & x & H & _). destruct j; discriminate.
  - rewrite IH. split.
    + intros [<-|(j & x & H & ->)].
      * exists 0, a. rewrite Nat.add_0_r. auto.
      * exists (S j), x. simpl. rewrite Nat.add_succ_r. auto.
    + intros ([|j] & x & H & ->); simpl in H.
      * inversion H; subst. rewrite Nat.add_0_r. auto.
      * right. exists j, x. rewrite Nat.add_succ_r. auto.
Qed.

(** ** del *)
Lemma del_In : forall fc s x, In x (del fc s) <-> In x s /\ if_name x <> if_name fc.
Proof. intros. unfold del. rewrite filter_In, negb_true_iff, seqb_neq. tauto. Qed.

Lemma del_NoDup : forall fc s, NoDup (map fst s) -> NoDup (map fst (del fc s)).
Proof.
  induction s as [|x s IH]; simpl; intros H; auto.
  inversion H; subst. destruct (negb _); simpl; auto. constructor; auto.
  intros HI. apply H2. apply in_map_iff in HI. destruct HI as (y & E & HI).
  apply filter_In in HI. apply in_map_iff. exists y; tauto.
Qed.

Lemma del_length : forall fc s, NoDup (map fst s) -> In fc s -> length s = S (length (del fc s)).
Proof.
  induction s as [|x s IH]; simpl; intros HN HI; [tauto|].
  inversion HN; subst. destruct (seqb_spec (if_name x) (if_name fc)) as [E|E]; simpl.
  - f_equal. clear - H1 E. induction s as [|y s IH]; simpl; auto.
    destruct (seqb_spec (if_name y) (if_name fc)) as [E2|E2]; simpl.
    + elim H1. simpl. left. unfold if_name in *. congruence.
    + f_equal. apply IH. simpl in H1. tauto.
  - f_equal. apply IH; auto. destruct HI as [->|HI]; auto. congruence.
Qed.

(** ** The compositions are exactly the arrangements of the usable columns. *)
Definition usables (s : list ifield) : list ifield := filter (fun f => usable (if_type f)) s.

Lemma name_inj : forall (s : list ifield) x y, NoDup (map fst s) -> In x s -> In y s -> fst x = fst y -> x = y.
Proof.
  induction s as [|a s IH]; simpl; intros x y HN Hx Hy E; [tauto|].
  inversion HN; subst.
  destruct Hx as [->|Hx], Hy as [->|Hy]; auto.
  - elim H1. rewrite E. now apply in_map.
  - elim H1. rewrite <- E. now apply in_map.
Qed.


Lemma NoDup_snoc : forall {A} (l : list A) x, NoDup l -> ~ In x l -> NoDup (l ++ [x]).
Proof.
  intros A l x H1 H2. apply NoDup_rev in H1. rewrite <- (rev_involutive (l ++ [x])).
  apply NoDup_rev. rewrite rev_app_distr. simpl. constructor; auto. now rewrite <- in_rev.
Qed.
Lemma NoDup_snoc_inv : forall {A} (l : list A) x, NoDup (l ++ [x]) -> NoDup l /\ ~ In x l.
Proof.
  intros A l x H. apply NoDup_rev in H. rewrite rev_app_distr in H. simpl in H.
  inversion H; subst. rewrite <- in_rev in H2. split; auto.
  rewrite <- (rev_involutive l). now apply NoDup_rev.
Qed.

Lemma concat_last_NoDup : forall (g : nat -> ifield -> list (list ifield)) l i,
    NoDup l -> (forall j fc, In fc l -> NoDup (g j fc)) ->
    (forall j fc y, In fc l -> In y (g j fc) -> exists r, y = r ++ [fc]) ->
    NoDup (concat (mapi_from i g l)).
Proof.
  induction l as [|a l IH]; intros i HN H1 H2; simpl; [constructor|].
  inversion HN; subst.
  assert (HD : forall (x y : list (list ifield)), NoDup x -> NoDup y -> (forall z, In z x -> In z y -> False) -> NoDup (x ++ y)).
  { induction x as [|u x IHx]; simpl; auto. intros y Hx Hy Hd. inversion Hx; subst. constructor.
    - rewrite in_app_iff. intros [HI|HI]; [auto|]. apply (Hd u); auto.
    - apply IHx; auto. intros z Hz1 Hz2. apply (Hd z); auto. }
  apply HD.
  - apply H1. now left.
  - apply IH; auto.
    + intros j fc Hin. apply H1. now right.
    + intros j fc y Hin. apply H2. now right.
  - intros z Hz1 Hz2. destruct (H2 i a z (or_introl eq_refl) Hz1) as [r ->].
    apply in_concat in Hz2. destruct Hz2 as (w & Hw & Hz2). apply mapi_from_In in Hw.
    destruct Hw as (j & fc & Hj & ->). apply nth_error_In in Hj.
    destruct (H2 _ fc _ (or_intror Hj) Hz2) as [r2 E]. apply app_inj_tail in E. destruct E as [_ E]. subst. auto.
Qed.

Section Comp.
  Context (ord : order ifield) (Hord : is_order ord).

  Lemma composite_In : forall fuel path s l, NoDup (map fst s) -> length s <= fuel ->
      (In l (composite ord fuel path s) <-> arrangement (usables s) l).
  Proof.
    induction fuel as [|fuel IH]; intros path s l HN HL.
    - destruct s; [|simpl in HL; lia]. simpl. split; [tauto|].
      intros (H1 & _ & H3). destruct l as [|a l]; [congruence|]. apply (H3 a). now left.
    - cbn [composite]. rewrite in_concat. split.
      + intros (y & Hy & Hl). unfold mapi in Hy. apply mapi_from_In in Hy.
        destruct Hy as (j & fc & Hj & ->). apply nth_error_In in Hj.
        apply (Permutation_in _ (Hord path s)) in Hj.
        destruct (usable (if_type fc)) eqn:EU; [|destruct Hl].
        destruct Hl as [<-|Hl].
        * split; [congruence|]. split; [repeat constructor; auto|].
          intros x [<-|[]]. unfold usables. apply filter_In. auto.
        * apply in_map_iff in Hl. destruct Hl as (r & <- & Hr).
          rewrite IH in Hr.
          2:{ now apply del_NoDup. }
          2:{ rewrite (del_length fc s HN Hj) in HL. lia. }
          destruct Hr as (R1 & R2 & R3).
          split; [destruct r; simpl; congruence|]. split.
          -- rewrite map_app. simpl. apply NoDup_snoc; auto.
             intros HI. apply in_map_iff in HI. destruct HI as (x & E & HI). apply R3 in HI.
             unfold usables in HI. apply filter_In in HI. rewrite del_In in HI. unfold if_name in HI. tauto.
          -- intros x Hx. apply in_app_or in Hx. destruct Hx as [Hx|[<-|[]]].
             ++ apply R3 in Hx. unfold usables in *. rewrite filter_In in *. rewrite del_In in Hx. tauto.
             ++ unfold usables. rewrite filter_In. auto.
      + intros (H1 & H2 & H3).
        destruct (exists_last H1) as (r & fc & ->).
        assert (Hfc : In fc (usables s)) by (apply H3, in_or_app; right; now left).
        unfold usables in Hfc. apply filter_In in Hfc. destruct Hfc as [Hs HU].
        pose proof (Permutation_in _ (Permutation_sym (Hord path s)) Hs) as Ho.
        apply In_nth_error in Ho. destruct Ho as [j Hj].
        eexists. split.
        * unfold mapi. apply mapi_from_In. exists j, fc. split; [exact Hj|reflexivity].
        * cbv beta. rewrite HU. destruct r as [|a r]; [left; reflexivity|].
          right. apply in_map_iff. exists (a :: r). split; auto.
          rewrite map_app in H2. simpl in H2.
          change (fst a :: map fst r ++ [fst fc]) with (map fst (a :: r) ++ [fst fc]) in H2.
          apply NoDup_snoc_inv in H2. destruct H2 as [H2 H2'].
          apply IH.
          -- now apply del_NoDup.
          -- rewrite (del_length fc s HN Hs) in HL. lia.
          -- split; [congruence|]. split; auto. intros x Hx.
             assert (Hx' : In x (usables s)) by (apply H3, in_or_app; now left).
             unfold usables in *. rewrite filter_In in *. rewrite del_In. split; [|tauto]. split; [tauto|].
             intros E. apply H2'. apply in_map_iff. exists x. unfold if_name in E. auto.
  Qed.

  Lemma composite_NoDup : forall fuel path s, NoDup (map fst s) -> length s <= fuel ->
      NoDup (composite ord fuel path s).
  Proof.
    induction fuel as [|fuel IH]; intros path s HN HL; [constructor|].
    cbn [composite]. apply concat_last_NoDup.
    - apply (Permutation_NoDup (Permutation_sym (Hord path s))). now apply NoDup_map_inv in HN.
    - intros j fc Hin. apply (Permutation_in _ (Hord path s)) in Hin.
      destruct (usable (if_type fc)); [|constructor].
      assert (HL2 : length (del fc s) <= fuel) by (rewrite (del_length fc s HN Hin) in HL; lia).
      assert (HN2 := del_NoDup fc s HN).
      constructor.
      + intros HI. apply in_map_iff in HI. destruct HI as (r & E & Hr).
        apply composite_In in Hr; auto. destruct Hr as (R1 & _). destruct r as [|a r]; [congruence|].
        simpl in E. inversion E. destruct r; discriminate.
      + apply FinFun.Injective_map_NoDup; [|now apply IH].
        intros x y E. now apply app_inj_tail in E.
    - intros j fc y Hin Hy. destruct (usable (if_type fc)); [|destruct Hy].
      destruct Hy as [<-|Hy]; [exists []; auto|].
      apply in_map_iff in Hy. destruct Hy as (r & <- & _). eauto.
  Qed.
End Comp.

(** ** The efficiency filter *)
Definition nonref (f : ifield) : Prop := is_reference (if_type f) = false.
Definition isref (f : ifield) : Prop := is_reference (if_type f) = true.

(** Non-decreasing names. *)
Fixpoint nondec (l : list ifield) : Prop :=
  match l with
  | [] => True
  | x :: l' => match l' with [] => True | y :: _ => sltb (if_name y) (if_name x) = false end /\ nondec l'
  end.

Lemma refs_sorted_iff : forall rest f,
    refs_sorted_from f rest = true <-> Forall isref rest /\ nondec (f :: rest).
Proof.
  induction rest as [|g rest IH]; intros f.
  - simpl. split; auto.
  - cbn [refs_sorted_from]. rewrite !andb_true_iff, negb_true_iff, IH.
    split.
    + intros [[H1 H2] [H3 H4]]. split; [constructor; auto|]. split; auto.
    + intros [HF [H1 H2]]. inversion HF; subst. auto.
Qed.

Lemma efficient_from_refs : forall total rest f, refs_sorted_from f rest = true ->
    efficient_from total total rest = true.
Proof.
  induction rest as [|g rest IH]; intros f H; simpl in *; auto.
  rewrite !andb_true_iff in H. destruct H as [[H1 H2] H3].
  rewrite H1, Nat.eqb_refl, H3. simpl. eapply IH; eauto.
Qed.

Lemma efficient_from_iff : forall fields total len,
    efficient_from total len fields = true <->
    Forall nonref fields \/
    (len = total /\ exists cs rs, fields = cs ++ rs /\ rs <> [] /\ Forall nonref cs /\ Forall isref rs /\ nondec rs).
Proof.
  induction fields as [|f fields IH]; intros total len; cbn [efficient_from].
  - split; auto.
  - destruct (is_reference (if_type f)) eqn:E.
    + rewrite !andb_true_iff, Nat.eqb_eq. split.
      * intros [[H1 H2] H3]. right. split; auto. exists [], (f :: fields).
        apply refs_sorted_iff in H2. destruct H2. split; [auto|]. split; [congruence|]. split; [constructor|].
        split; [constructor; auto|auto].
      * intros [H|(-> & cs & rs & E2 & Hne & Hc & Hr & Hd)].
        { inversion H; subst. unfold nonref in H2. congruence. }
        destruct cs as [|c cs].
        -- simpl in E2. subst rs. inversion Hr; subst.
           assert (HS : refs_sorted_from f fields = true) by (apply refs_sorted_iff; auto).
           split; [split; auto|]. eapply efficient_from_refs; eauto.
        -- inversion E2; subst. inversion Hc; subst. unfold nonref in *. congruence.
    + rewrite IH. split.
      * intros [H|(-> & cs & rs & -> & Hne & Hc & Hr & Hd)].
        -- left; constructor; auto.
        -- right. split; auto. exists (f :: cs), rs. split; [auto|]. split; [auto|]. split; [constructor; auto|auto].
      * intros [H|(-> & cs & rs & E2 & Hne & Hc & Hr & Hd)].
        -- left. now inversion H.
        -- right. split; auto. destruct cs as [|c cs].
           ++ simpl in E2. subst rs. inversion Hr; subst. unfold isref in *. congruence.
           ++ inversion E2; subst. inversion Hc; subst. eauto 10.
Qed.

Lemma ascending_nondec : forall l, NoDup (map fst l) -> (ascending l <-> nondec l).
Proof.
  induction l as [|x l IH]; intros HN; simpl; [tauto|].
  simpl in HN. inversion HN; subst. rewrite IH by auto.
  destruct l as [|y l]; [tauto|]. unfold if_name. split; intros [H3 H4]; split; auto.
  - now apply sltb_asym.
  - destruct (sltb (fst x) (fst y)) eqn:E; auto. elim H1. left. symmetry. now apply sltb_total.
Qed.

Lemma conditions_filter : forall s, conditions s = filter (fun f => is_condition (if_type f)) s.
Proof. intros. apply filter_ext. intros [n t]; reflexivity. Qed.
Lemma references_filter : forall s, references s = filter (fun f => is_reference (if_type f)) s.
Proof. intros. apply filter_ext. intros [n t]; reflexivity. Qed.

Lemma Permutation_filter : forall {A} (p : A -> bool) l l', Permutation l l' -> Permutation (filter p l) (filter p l').
Proof.
  induction 1; simpl; auto.
  - destruct (p x); auto.
  - destruct (p x), (p y); auto. constructor.
  - eapply perm_trans; eauto.
Qed.
Lemma filter_all : forall {A} (p : A -> bool) l, (forall x, In x l -> p x = true) -> filter p l = l.
Proof.
  induction l as [|a l IH]; simpl; intros H; auto. rewrite (H a) by auto. f_equal. auto.
Qed.
Lemma filter_none : forall {A} (p : A -> bool) l, (forall x, In x l -> p x = false) -> filter p l = [].
Proof.
  induction l as [|a l IH]; simpl; intros H; auto. rewrite (H a) by auto. auto.
Qed.

Definition refcond (f : ifield) : Prop := usable (if_type f) = true.
Lemma refcond_cases : forall f, refcond f ->
    (isref f /\ is_condition (if_type f) = false) \/ (nonref f /\ is_condition (if_type f) = true).
Proof. intros [n []] H; unfold refcond, isref, nonref in *; simpl in *; auto; discriminate. Qed.

Lemma perm_split : forall s, Forall refcond s -> Permutation s (conditions s ++ references s).
Proof.
  intros s H. rewrite conditions_filter, references_filter.
  induction s as [|x s IH]; simpl; auto. inversion H; subst.
  destruct (refcond_cases x H2) as [[HA HB]|[HA HB]].
  - unfold isref in HA. rewrite HA, HB. apply Permutation_cons_app. auto.
  - unfold nonref in HA. rewrite HA, HB. simpl. auto.
Qed.

Lemma NoDup_fst_perm : forall (a b : list ifield), Permutation a b -> NoDup (map fst a) -> NoDup (map fst b).
Proof. intros a b H. apply Permutation_NoDup. now apply Permutation_map. Qed.

Theorem efficient_iff : forall ord path s, is_order ord -> NoDup (map fst s) -> Forall refcond s ->
    forall l, In l (extract_efficient ord path s) <-> candidate s l.
Proof.
  intros ord path s Hord HN HR l. unfold extract_efficient. rewrite filter_In.
  rewrite composite_In by auto. unfold efficient. rewrite efficient_from_iff.
  assert (HU : usables s = s).
  { apply filter_all. rewrite Forall_forall in HR. exact HR. }
  rewrite HU. unfold candidate. split.
  - intros [(H1 & H2 & H3) [HF|(HL & cs & rs & -> & Hne & Hc & Hr & Hd)]].
    + left. split; auto. split; auto. intros x Hx.
      rewrite conditions_filter, filter_In. split; auto.
      rewrite Forall_forall in HF, HR. destruct (refcond_cases x (HR x (H3 x Hx))) as [[HA _]|[_ HB]]; auto.
      specialize (HF x Hx). unfold isref, nonref in *. congruence.
    + right. 
      assert (HP : Permutation (cs ++ rs) s).
      { apply NoDup_Permutation_bis; [eapply NoDup_map_inv; eauto|lia|]. intros x; apply H3. }
      assert (HPr : Permutation rs (references s)).
      { rewrite references_filter. pose proof (Permutation_filter (fun f => is_reference (if_type f)) _ _ HP) as HPf.
        rewrite filter_app in HPf. rewrite (filter_none _ cs), (filter_all _ rs) in HPf; auto.
        - rewrite Forall_forall in Hr. exact Hr.
        - rewrite Forall_forall in Hc. exact Hc. }
      assert (HPc : Permutation cs (conditions s)).
      { rewrite conditions_filter. pose proof (Permutation_filter (fun f => is_condition (if_type f)) _ _ HP) as HPf.
        assert (HRC : forall x, In x (cs ++ rs) -> refcond x).
        { intros x Hx. rewrite Forall_forall in HR. apply HR. now apply (Permutation_in _ HP). }
        rewrite filter_app in HPf. rewrite (filter_all _ cs), (filter_none _ rs), app_nil_r in HPf; auto.
        - intros x Hx. rewrite Forall_forall in Hr. specialize (Hr x Hx).
          destruct (refcond_cases x (HRC x (in_or_app _ _ _ (or_intror Hx)))) as [[_ HB]|[HA _]]; auto.
          unfold isref, nonref in *; congruence.
        - intros x Hx. rewrite Forall_forall in Hc. specialize (Hc x Hx).
          destruct (refcond_cases x (HRC x (in_or_app _ _ _ (or_introl Hx)))) as [[HA _]|[_ HB]]; auto.
          unfold isref, nonref in *; congruence. }
      split.
      * intros E. rewrite E in HPr. apply Permutation_sym, Permutation_nil in HPr. auto.
      * exists cs, rs. split; auto. split; auto. split; auto. apply ascending_nondec; auto.
        rewrite map_app in H2. clear - H2. induction cs; simpl in *; auto. inversion H2; auto.
  - intros [(H1 & H2 & H3)|(Hne & cs & rs & -> & Hpc & Hpr & Ha)].
    + split.
      * split; auto. split; auto. intros x Hx. apply H3 in Hx. rewrite conditions_filter, filter_In in Hx. tauto.
      * left. apply Forall_forall. intros x Hx. apply H3 in Hx. rewrite conditions_filter, filter_In in Hx.
        destruct Hx as [_ Hx]. unfold nonref. destruct (if_type x); simpl in *; congruence.
    + assert (HP : Permutation (cs ++ rs) s).
      { eapply perm_trans; [apply Permutation_app; eauto|]. apply Permutation_sym, perm_split; auto. }
      assert (HN2 : NoDup (map fst (cs ++ rs))) by (eapply NoDup_fst_perm; [apply Permutation_sym; eauto|auto]).
      assert (Hrne : rs <> []).
      { intros ->. apply Permutation_nil in Hpr. auto. }
      split.
      * split; [intros E; apply app_eq_nil in E; tauto|]. split; auto. intros x. apply Permutation_in; auto.
      * right. split; [now apply Permutation_length|]. exists cs, rs. split; auto. split; auto.
        split; [|split].
        -- apply Forall_forall. intros x Hx. apply (Permutation_in _ Hpc) in Hx.
           rewrite conditions_filter, filter_In in Hx. destruct Hx as [_ Hx].
           unfold nonref. destruct (if_type x); simpl in *; congruence.
        -- apply Forall_forall. intros x Hx. apply (Permutation_in _ Hpr) in Hx.
           rewrite references_filter, filter_In in Hx. tauto.
        -- apply ascending_nondec; auto. rewrite map_app in HN2. clear - HN2.
           induction cs; simpl in *; auto. inversion HN2; auto.
Qed.

Lemma pk_only_iff : forall pks l, pk_only pks l = true <-> only_pk pks l.
Proof.
  intros. unfold pk_only, only_pk, str_in. rewrite forallb_forall. split; intros H f Hf.
  - specialize (H f Hf). apply existsb_exists in H. destruct H as (x & Hx & E). apply seqb_eq in E.
    unfold if_name in E. now rewrite E.
  - apply existsb_exists. exists (fst f). split; auto. apply seqb_refl.
Qed.

Theorem index_composition_iff : forall ord path s pks, is_order ord -> NoDup (map fst s) -> Forall refcond s ->
    forall l, In l (index_composition ord path s pks) <-> candidate s l /\ ~ only_pk pks l.
Proof.
  intros. unfold index_composition, remove_pk_only. rewrite filter_In, efficient_iff by auto.
  rewrite negb_true_iff, <- not_true_iff_false, pk_only_iff. tauto.
Qed.

Theorem index_composition_NoDup : forall ord path s pks, is_order ord -> NoDup (map fst s) ->
    NoDup (index_composition ord path s pks).
Proof.
  intros. unfold index_composition, remove_pk_only, extract_efficient.
  apply NoDup_filter, NoDup_filter, composite_NoDup; auto.
Qed.

(** Whatever the types: candidates are arrangements of usable columns. *)
Theorem index_composition_sound : forall ord path s pks l, is_order ord -> NoDup (map fst s) ->
    In l (index_composition ord path s pks) ->
    l <> [] /\ NoDup (map fst l) /\ (forall x, In x l -> In x s) /\ ~ only_pk pks l.
Proof.
  intros ord path s pks l Ho HN H. unfold index_composition, remove_pk_only, extract_efficient in H.
  apply filter_In in H. destruct H as [H Hpk]. apply filter_In in H. destruct H as [H _].
  apply composite_In in H; auto. destruct H as (H1 & H2 & H3). split; auto. split; auto. split.
  - intros x Hx. apply H3 in Hx. unfold usables in Hx. apply filter_In in Hx. tauto.
  - rewrite <- pk_only_iff. rewrite negb_true_iff in Hpk. congruence.
Qed.

(** ** Sorting *)
Definition itt_key (t : index_target_table) : gostring * list gostring := (itt_table t, map if_name (itt_fields t)).

Lemma names_less_spec : forall a b, length a = length b ->
    (names_less a b = false /\ names_less b a = false -> map if_name a = map if_name b).
Proof.
  induction a as [|x a IH]; intros [|y b] HL [H1 H2]; simpl in *; try discriminate; auto.
  rewrite (seqb_sym (if_name y)) in H2.
  destruct (seqb_spec (if_name x) (if_name y)) as [E|E].
  - rewrite E. f_equal. apply IH; auto.
  - elim E. now apply sltb_total.
Qed.
Lemma names_less_irrefl : forall a, names_less a a = false.
Proof. induction a; simpl; auto. now rewrite seqb_refl. Qed.
Lemma names_less_trans : forall a b c, names_less a b = true -> names_less b c = true -> names_less a c = true.
Proof.
  induction a as [|x a IH]; intros [|y b] [|z c] H1 H2; simpl in *; try discriminate.
  destruct (seqb_spec (if_name x) (if_name y)) as [E1|E1].
  - rewrite E1. destruct (seqb_spec (if_name y) (if_name z)); eauto.
  - destruct (seqb_spec (if_name y) (if_name z)) as [E2|E2].
    + rewrite <- E2. destruct (seqb_spec (if_name x) (if_name y)); [congruence|auto].
    + pose proof (sltb_trans _ _ _ H1 H2) as H3.
      destruct (seqb_spec (if_name x) (if_name z)) as [E3|E3]; auto.
      rewrite E3, sltb_irrefl in H3. discriminate.
Qed.

Lemma itt_less_irrefl : forall a, itt_less a a = false.
Proof. intros. unfold itt_less. rewrite seqb_refl, Nat.eqb_refl. simpl. apply names_less_irrefl. Qed.
Lemma itt_less_total : forall a b, itt_less a b = false -> itt_less b a = false -> itt_key a = itt_key b.
Proof.
  intros a b H1 H2. unfold itt_less in *. unfold itt_key.
  rewrite (seqb_sym (itt_table b)) in H2. rewrite (Nat.eqb_sym (length (itt_fields b))) in H2.
  destruct (seqb_spec (itt_table a) (itt_table b)) as [E|E]; simpl in *.
  - destruct (Nat.eqb_spec (length (itt_fields a)) (length (itt_fields b))) as [E2|E2]; simpl in *.
    + rewrite E. f_equal. apply names_less_spec; auto.
    + apply Nat.ltb_ge in H1, H2. lia.
  - elim E. now apply sltb_total.
Qed.
Lemma itt_less_trans : forall a b c, itt_less a b = true -> itt_less b c = true -> itt_less a c = true.
Proof.
  intros a b c. unfold itt_less.
  destruct (seqb_spec (itt_table a) (itt_table b)) as [E1|E1], (seqb_spec (itt_table b) (itt_table c)) as [E2|E2]; simpl.
  - rewrite E1, E2, seqb_refl. simpl.
    destruct (Nat.eqb_spec (length (itt_fields a)) (length (itt_fields b))) as [L1|L1],
             (Nat.eqb_spec (length (itt_fields b)) (length (itt_fields c))) as [L2|L2]; simpl; intros H1 H2.
    + rewrite L1, L2, Nat.eqb_refl. simpl. eapply names_less_trans; eauto.
    + rewrite L1. destruct (Nat.eqb_spec (length (itt_fields b)) (length (itt_fields c))); [congruence|auto].
    + rewrite <- L2. destruct (Nat.eqb_spec (length (itt_fields a)) (length (itt_fields b))); [congruence|auto].
    + apply Nat.ltb_lt in H1, H2.
      destruct (Nat.eqb_spec (length (itt_fields a)) (length (itt_fields c))); [lia|]. simpl. apply Nat.ltb_lt. lia.
  - intros _ H2. rewrite E1. destruct (seqb_spec (itt_table b) (itt_table c)); [congruence|]. auto.
  - intros H1 _. rewrite <- E2. destruct (seqb_spec (itt_table a) (itt_table b)); [congruence|]. auto.
  - intros H1 H2. pose proof (sltb_trans _ _ _ H1 H2) as H3.
    destruct (seqb_spec (itt_table a) (itt_table c)) as [E3|E3]; auto.
    rewrite E3, sltb_irrefl in H3. discriminate.
Qed.

(** Two sorted permutations of each other agree on the keys. *)
Lemma sorted_unique : forall {A B} (less : A -> A -> bool) (key : A -> B),
    (forall a b, less a b = false -> less b a = false -> key a = key b) ->
    (forall a b c d, key a = key c -> key b = key d -> less a b = less c d) ->
    (forall a, less a a = false) ->
    forall l1 l2, Permutation (map key l1) (map key l2) -> sorted_by less l1 -> sorted_by less l2 ->
    map key l1 = map key l2.
Proof.
  intros A B less key Htot Hkey Hirr.
  induction l1 as [|x l1 IH]; intros l2 HP H1 H2.
  - simpl in HP. apply Permutation_nil in HP. destruct l2; [auto|discriminate].
  - destruct l2 as [|y l2]; [apply Permutation_sym, Permutation_nil in HP; discriminate|].
    inversion H1 as [|? ? HF1 HS1]; subst. inversion H2 as [|? ? HF2 HS2]; subst.
    assert (HE : key x = key y).
    { assert (Hx : In (key x) (map key (y :: l2))) by (apply (Permutation_in _ HP); now left).
      assert (Hy : In (key y) (map key (x :: l1))) by (apply (Permutation_in _ (Permutation_sym HP)); now left).
      simpl in Hx, Hy. destruct Hx as [Hx|Hx]; [auto|]. destruct Hy as [Hy|Hy]; [auto|].
      apply in_map_iff in Hx. destruct Hx as (x' & Ex & Hx). apply in_map_iff in Hy. destruct Hy as (y' & Ey & Hy).
      rewrite Forall_forall in HF1, HF2. specialize (HF1 y' Hy). specialize (HF2 x' Hx).
      apply Htot.
      - now rewrite <- (Hkey x' y x y Ex eq_refl).
      - now rewrite <- (Hkey y' x y x Ey eq_refl). }
    simpl in *. rewrite HE in *. f_equal. apply IH; auto. eapply Permutation_cons_inv; eauto.
Qed.

Lemma names_less_key : forall a b c d, map if_name a = map if_name c -> map if_name b = map if_name d ->
    names_less a b = names_less c d.
Proof.
  induction a as [|x a IH]; intros b [|z c] d H1 H2; simpl in H1; try discriminate; auto.
  inversion H1. destruct b as [|y b], d as [|w d]; simpl in H2; try discriminate; auto.
  inversion H2. simpl. rewrite H0, H4. erewrite IH; eauto.
Qed.
Lemma itt_less_key : forall a b c d, itt_key a = itt_key c -> itt_key b = itt_key d -> itt_less a b = itt_less c d.
Proof.
  intros a b c d H1 H2. unfold itt_key in *. inversion H1 as [[E1 E2]]. inversion H2 as [[E3 E4]].
  unfold itt_less. rewrite E1, E3.
  assert (L1 : length (itt_fields a) = length (itt_fields c)).
  { rewrite <- (map_length if_name (itt_fields a)), E2. apply map_length. }
  assert (L2 : length (itt_fields b) = length (itt_fields d)).
  { rewrite <- (map_length if_name (itt_fields b)), E4. apply map_length. }
  rewrite L1, L2. erewrite names_less_key; eauto.
Qed.
