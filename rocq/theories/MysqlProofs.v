(** Lemmas about the MySQL collectors. *)
From Coq Require Import String List NArith Bool Lia Permutation.
From Verif Require Import Base IndexText IndexBuild TableFields TableFieldsProofs Existing MysqlAst MysqlCollect MysqlSpec.
Import ListNotations.

Scheme occurs_mut := Induction for occurs Sort Prop
  with occurs_all_mut := Induction for occurs_all Sort Prop.

Lemma set_err_assoc : forall a b c, set_err a (set_err b c) = set_err (set_err a b) c.
Proof. intros [a|] b c; reflexivity. Qed.

Section P.
  Context (low : rune -> rune).
  Notation collect := (collect_expr low).

  (** ** Expressions *)
  Fixpoint collect_list (ty : field_type) (es : list node) (le : option gostring) : list fcol * option gostring :=
    match es with
    | [] => ([], le)
    | x :: es' =>
        let '(r, le1) := collect ty x le in
        let '(rs, le2) := collect_list ty es' le1 in (r ++ rs, le2)
    end.
  Lemma many_eq : forall ty es le,
    (fix many (es : list node) (le : option gostring) {struct es} : list fcol * option gostring :=
      match es with
      | [] => ([], le)
      | x :: es' =>
          let '(r, le1) := collect ty x le in
          let '(rs, le2) := many es' le1 in (r ++ rs, le2)
      end) es le = collect_list ty es le.
  Proof. induction es as [|x es IH]; intros le; simpl; auto. destruct (collect ty x le). now rewrite IH. Qed.

  (** The children the collector looks at. *)
  Definition seen (n : node) : list node :=
    match n with
    | E1 SetCollationExpr _ | UserVar _ | Subquery _ => []
    | Aggregate args _ => args
    | _ => kids n
    end.
  (** Nodes whose result is that of their children. *)
  Definition plain (n : node) : Prop := inner n /\ ~ offends n.

  Lemma collect_list_app : forall ty a b le, collect_list ty (a ++ b) le =
    let '(r1, le1) := collect_list ty a le in let '(r2, le2) := collect_list ty b le1 in (r1 ++ r2, le2).
  Proof.
    induction a as [|x a IH]; intros b le; simpl.
    - destruct (collect_list ty b le); reflexivity.
    - destruct (collect ty x le) as [r le1]. rewrite IH. destruct (collect_list ty a le1) as [r1 le2].
      destruct (collect_list ty b le2) as [r2 le3]. now rewrite app_assoc.
  Qed.
  Lemma collect_list_1 : forall ty x le, collect_list ty [x] le = collect ty x le.
  Proof. intros. simpl. destruct (collect ty x le). now rewrite app_nil_r. Qed.

  Lemma collect_plain : forall ty n le, plain n -> collect ty n le = collect_list ty (seen n) le.
  Proof.
    intros ty n le [Hi Ho]. destruct n; simpl in Hi, Ho; try tauto; simpl; rewrite ?many_eq; auto.
    - destruct t; simpl in *; try tauto; reflexivity.
    - destruct t; simpl; auto; destruct (collect ty n le); now rewrite app_nil_r.
    - destruct t; simpl; destruct (collect ty n1 le) as [r1 l1]; destruct (collect ty n2 l1); now rewrite app_nil_r.
    - destruct t; now rewrite ?many_eq.
    - destruct (collect ty n1 le) as [r1 l1]. destruct (collect ty n2 l1) as [r2 l2]. destruct (collect ty n3 l2). now rewrite app_nil_r.
    - destruct (collect ty n1 le) as [r1 l1]. rewrite many_eq, collect_list_app.
      destruct (collect_list ty whens l1) as [r2 l2]. rewrite collect_list_1. destruct (collect ty n2 l2). reflexivity.
    - destruct (collect ty n1 le) as [r1 l1]. destruct (collect ty n2 l1). now rewrite app_nil_r.
    - rewrite collect_list_app. destruct (collect_list ty args le) as [r1 l1]. rewrite many_eq, collect_list_app.
      destruct (collect_list ty partition l1) as [r2 l2]. rewrite many_eq. destruct (collect_list ty order l2). reflexivity.
    - destruct (collect ty n1 le) as [r1 l1]. rewrite many_eq, collect_list_app.
      destruct (collect_list ty items l1) as [r2 l2]. rewrite collect_list_1. destruct (collect ty n2 l2). reflexivity.
  Qed.
  Lemma seen_kids : forall n k, In k (seen n) -> In k (kids n) /\ forall q, n <> Subquery q.
  Proof.
    intros n k H. destruct n; simpl in *; try tauto; try (split; [tauto|discriminate]).
    - destruct t; simpl in H; try tauto; (split; [tauto|discriminate]).
    - split; [apply in_or_app; auto|discriminate].
  Qed.
  Lemma seen_all : forall n, ~ lossy n -> (forall q, n <> Subquery q) ->
      seen n = kids n \/ exists v, n = UserVar v /\ v = Nil.
  Proof.
    intros n Hl Hs. destruct n; simpl in *; auto.
    - destruct t; simpl in *; tauto.
    - destruct n; simpl in *; try tauto. right; eauto.
    - destruct order; [|tauto]. left. now rewrite app_nil_r.
    - exfalso. now apply (Hs n).
  Qed.

  (** Collected columns do not depend on the pending error, and that is only
      overwritten by a later one. *)
  Lemma collect_pass : forall n ty le, collect ty n le = (fst (collect ty n None), set_err (snd (collect ty n None)) le).
  Proof.
    induction n as [n IH] using node_ind'. intros ty le.
    assert (HL : forall l le, (forall x, In x l -> In x (kids n)) ->
      collect_list ty l le = (fst (collect_list ty l None), set_err (snd (collect_list ty l None)) le)).
    { induction l as [|x l IHl]; intros le' Hl; simpl; auto.
      rewrite Forall_forall in IH. rewrite (IH x (Hl x (or_introl eq_refl)) ty le').
      destruct (collect ty x None) as [r le1]. simpl.
      rewrite IHl by (intros; apply Hl; now right). rewrite (IHl le1) by (intros; apply Hl; now right).
      destruct (collect_list ty l None) as [rs le2]. simpl. now rewrite set_err_assoc. }
    assert (HP : plain n -> collect ty n le = (fst (collect ty n None), set_err (snd (collect ty n None)) le)).
    { intros Hp. rewrite !collect_plain by auto. apply HL. intros x Hx. now apply seen_kids in Hx. }
    destruct n; try (apply HP; split; simpl; tauto); try reflexivity.
    - destruct t; try (apply HP; split; simpl; tauto); reflexivity.
    - rewrite Forall_forall in IH. simpl. rewrite (IH n (or_introl eq_refl) ty le).
      destruct (collect ty n None) as [r1 l1]. reflexivity.
  Qed.
  Lemma collect_list_pass : forall ty l le,
    collect_list ty l le = (fst (collect_list ty l None), set_err (snd (collect_list ty l None)) le).
  Proof.
    induction l as [|x l IHl]; intros le; simpl; auto. rewrite (collect_pass x ty le).
    destruct (collect ty x None) as [r le1]. simpl. rewrite IHl, (IHl le1).
    destruct (collect_list ty l None) as [rs le2]. simpl. now rewrite set_err_assoc.
  Qed.
  Lemma collect_list_fst : forall ty l le, fst (collect_list ty l le) = flat_map (fun x => fst (collect ty x None)) l.
  Proof.
    induction l as [|x l IHl]; intros le; simpl; auto. rewrite (collect_pass x ty le). simpl.
    rewrite <- (IHl (set_err (snd (collect ty x None)) le)). destruct (collect_list ty l _). reflexivity.
  Qed.
  Lemma collect_list_none : forall ty l, snd (collect_list ty l None) = None <-> forall x, In x l -> snd (collect ty x None) = None.
  Proof.
    induction l as [|x l IHl]; simpl; [tauto|]. rewrite (surjective_pairing (collect ty x None)).
    rewrite collect_list_pass. simpl. destruct (snd (collect_list ty l None)) as [m|] eqn:E; simpl.
    - split; [discriminate|]. intros H. assert (Some m = None) by (apply IHl; auto). discriminate.
    - split; [|intros H; apply H; auto]. intros H y [<-|Hy]; auto. now apply IHl.
  Qed.

  (** Whether an error is reported does not depend on the kind. *)
  Lemma collect_err : forall n ty, ~ lossy n -> (forall q, n <> Subquery q) ->
      (snd (collect ty n None) = None <-> ~ offends n /\ forall k, In k (kids n) -> snd (collect ty k None) = None).
  Proof.
    intros n ty Hl Hs.
    assert (HP : plain n -> (snd (collect ty n None) = None <-> ~ offends n /\ forall k, In k (kids n) -> snd (collect ty k None) = None)).
    { intros Hp. rewrite collect_plain by auto. rewrite collect_list_none. destruct Hp as [_ Hp].
      destruct (seen_all n Hl Hs) as [->|(v & -> & ->)]; [tauto|]. simpl. split; [|tauto]. intros _. split; auto. intros k [<-|[]]. reflexivity. }
    destruct n; try (apply HP; split; simpl; tauto); simpl; try (split; [discriminate|tauto]).
    - destruct t; simpl; try (split; [discriminate|tauto]); split; auto; intros _; split; auto; tauto.
    - exfalso. now apply (Hs n).
    - split; auto. intros _. split; auto. tauto.
    - rewrite (surjective_pairing (collect ty n None)). simpl. split.
      + intros H. split; auto. intros k [<-|[]]; auto.
      + intros [_ H]. apply H; auto.
  Qed.

  Lemma part_trans : forall a b c, part a b -> part b c -> part a c.
  Proof. intros a b c H. induction H; auto. intros Hc. econstructor; eauto. Qed.
  Lemma lossless_kid : forall n k, lossless n -> (forall q, n <> Subquery q) -> In k (kids n) -> lossless k.
  Proof. intros n k H Hs Hk m Hm. apply H. econstructor; eauto. Qed.
  Lemma subquery_dec : forall n, (exists q, n = Subquery q) \/ forall q, n <> Subquery q.
  Proof. destruct n; try (right; discriminate). left; eauto. Qed.

  Lemma accepted_iff : forall n ty, lossless n ->
      (snd (collect ty n None) = None <-> forall m, part n m -> ~ offends m).
  Proof.
    induction n as [n IH] using node_ind'. intros ty Hl. destruct (subquery_dec n) as [[q ->]|Hs].
    - simpl. split; auto. intros _ m Hm. inversion Hm; subst; [simpl; tauto|]. congruence.
    - rewrite collect_err; auto; [|apply Hl; constructor]. rewrite Forall_forall in IH. split.
      + intros [H1 H2] m Hm. inversion Hm; subst; auto. apply (IH k) with (ty := ty); auto. eapply lossless_kid; eauto.
      + intros H. split; [apply H; constructor|]. intros k Hk. apply IH; auto; [eapply lossless_kid; eauto|].
        intros m Hm. apply H. econstructor; eauto.
  Qed.

  Lemma perm_flat_map : forall A B (f g : A -> list B) l, (forall x, In x l -> Permutation (f x) (g x)) ->
      Permutation (flat_map f l) (flat_map g l).
  Proof.
    induction l as [|x l IH]; intros H; simpl; auto. apply Permutation_app; [apply H; simpl; auto|apply IH]. intros; apply H; simpl; auto.
  Qed.

  (** [occurs] is a total function. *)
  Lemma occurs_fun : forall n l, occurs n l -> forall l', occurs n l' -> l = l'.
  Proof.
    apply (occurs_mut (fun n l _ => forall l', occurs n l' -> l = l') (fun ns l _ => forall l', occurs_all ns l' -> l = l')).
    - intros t n l' H. inversion H; subst; auto. match goal with H : inner _ |- _ => elim H end.
    - intros q l' H. inversion H; subst; auto. match goal with H : inner _ |- _ => elim H end.
    - intros cols a l _ IH l' H. inversion H; subst; [f_equal; auto|]. match goal with H : inner _ |- _ => elim H end.
    - intros n l Hi _ IH l' H. inversion H; subst; auto; elim Hi.
    - intros l' H. inversion H; auto.
    - intros x l xs ls _ IH1 _ IH2 l' H. inversion H; subst. f_equal; auto.
  Qed.
  Lemma occurs_all_of : forall ns, (forall x, In x ns -> exists l, occurs x l) -> exists l, occurs_all ns l.
  Proof.
    induction ns as [|x ns IH]; intros H; [exists []; constructor|].
    destruct (H x) as [l Hl]; [simpl; auto|]. destruct IH as [ls Hls]; [intros; apply H; simpl; auto|].
    exists (l ++ ls). now constructor.
  Qed.
  Lemma occurs_total : forall n, exists l, occurs n l.
  Proof.
    induction n as [n IH] using node_ind'. rewrite Forall_forall in IH.
    assert (HI : inner n -> exists l, occurs n l).
    { intros Hi. destruct (occurs_all_of (kids n) IH) as [l Hl]. exists l. now apply occ_inner. }
    destruct n; try (apply HI; exact I).
    - eexists; constructor.
    - eexists; constructor.
    - destruct (IH n) as [l Hl]; [simpl; auto|]. eexists. constructor. eauto.
  Qed.

  Lemma collect_exact : forall n ty, lossless n -> (forall m, part n m -> ~ offends m) ->
      exists l, occurs n l /\ Permutation (fst (collect ty n None)) (map (as_fcol low ty) l) /\
        (no_match n -> fst (collect ty n None) = map (as_fcol low ty) l).
  Proof.
    induction n as [n IH] using node_ind'. intros ty Hl Ho. rewrite Forall_forall in IH.
    assert (HK : (forall q, n <> Subquery q) -> forall k, In k (kids n) ->
      exists l, occurs k l /\ Permutation (fst (collect ty k None)) (map (as_fcol low ty) l) /\
        (no_match n -> fst (collect ty k None) = map (as_fcol low ty) l)).
    { intros Hs k Hk. destruct (IH k Hk ty) as (l & H1 & H2 & H3).
      - eapply lossless_kid; eauto.
      - intros m Hm. apply Ho. econstructor; eauto.
      - exists l. split; auto. split; auto. intros Hn. apply H3. intros m Hm. apply Hn. econstructor; eauto. }
    assert (HP : inner n -> exists l, occurs n l /\ Permutation (fst (collect ty n None)) (map (as_fcol low ty) l) /\
        (no_match n -> fst (collect ty n None) = map (as_fcol low ty) l)).
    { intros Hi. assert (Hs : forall q, n <> Subquery q) by (intros q ->; elim Hi).
      assert (HO : ~ offends n) by (apply Ho; constructor).
      specialize (HK Hs). rewrite collect_plain by (split; auto). rewrite collect_list_fst.
      assert (HA : forall ks, (forall k, In k ks -> In k (kids n)) -> exists l, occurs_all ks l /\
        Permutation (flat_map (fun x => fst (collect ty x None)) ks) (map (as_fcol low ty) l) /\
        (no_match n -> flat_map (fun x => fst (collect ty x None)) ks = map (as_fcol low ty) l)).
      { induction ks as [|k ks IHk]; intros Hk; [exists []; split; [constructor|]; split; [constructor|reflexivity]|].
        destruct (HK k) as (l & H1 & H2 & H3); [apply Hk; simpl; auto|].
        destruct IHk as (ls & H4 & H5 & H6); [intros; apply Hk; simpl; auto|].
        exists (l ++ ls). split; [now constructor|]. rewrite map_app. simpl. split; [now apply Permutation_app|].
        intros Hn. rewrite H3, H6; auto. }
      destruct (seen_all n) as [->|(v & -> & ->)]; auto; [apply Hl; constructor| |].
      - destruct (HA (kids n)) as (l & H1 & H2 & H3); auto. exists l. split; [now apply occ_inner|]. auto.
      - exists []. split; [apply occ_inner; [exact I|]|split; [constructor|reflexivity]].
        simpl. apply (occ_cons Nil [] [] []); constructor; [exact I|constructor]. }
    destruct n; try (apply HP; exact I).
    - exists [None]. split; [constructor|]. simpl. auto.
    - eexists. split; [constructor|]. simpl. auto.
    - destruct (HK (fun q => ltac:(discriminate)) n (or_introl eq_refl)) as (l & H1 & H2 & H3).
      exists (map Some cols ++ l). split; [now constructor|]. simpl. rewrite (surjective_pairing (collect ty n None)). simpl.
      rewrite map_app, map_map. split.
      + eapply perm_trans; [apply Permutation_app_comm|]. apply Permutation_app; auto.
        replace (map (fun x => as_fcol low ty (Some x)) cols) with (map (fun c => mk_fcol (L low (fst c)) (L low (snd c)) ty) cols); auto.
        apply map_ext. intros [a b]. reflexivity.
      + intros Hn. exfalso. eapply Hn; [constructor|reflexivity].
  Qed.

  (** Nothing is invented, whatever the expression. *)
  Lemma collect_sound : forall n ty c l, occurs n l -> In c (fst (collect ty n None)) -> exists m, In m l /\ c = as_fcol low ty m.
  Proof.
    intros n ty c l H. revert c. revert n l H.
    apply (occurs_mut (fun n l _ => forall c, In c (fst (collect ty n None)) -> exists m, In m l /\ c = as_fcol low ty m)
      (fun ns l _ => forall c k, In k ns -> In c (fst (collect ty k None)) -> exists m, In m l /\ c = as_fcol low ty m)).
    - intros t n c [<-|[]]. eexists. split; [left; reflexivity|reflexivity].
    - intros q c [<-|[]]. eexists. split; [left; reflexivity|reflexivity].
    - intros cols a l _ IH c. simpl. rewrite (surjective_pairing (collect ty a None)). simpl. intros H.
      apply in_app_or in H. destruct H as [H|H].
      + destruct (IH c H) as (m & H1 & H2). exists m. split; auto. apply in_or_app; auto.
      + apply in_map_iff in H. destruct H as ([a' b'] & <- & H). exists (Some (a', b')). split; auto. apply in_or_app. left. now apply in_map.
    - intros n l Hi _ IH c H.
      assert (HP : ~ offends n -> exists m, In m l /\ c = as_fcol low ty m).
      { intros Ho. rewrite collect_plain in H by (split; auto). rewrite collect_list_fst in H. apply in_flat_map in H.
        destruct H as (k & Hk & Hc). apply seen_kids in Hk. destruct Hk as [Hk _]. eauto. }
      destruct n; try (apply HP; simpl; tauto); simpl in H; try tauto.
    - simpl. tauto.
    - intros x l xs ls _ IH1 _ IH2 c k [<-|Hk] Hc.
      + destruct (IH1 c Hc) as (m & H1 & H2). exists m. split; auto. apply in_or_app; auto.
      + destruct (IH2 c k Hk Hc) as (m & H1 & H2). exists m. split; auto. apply in_or_app; auto.
  Qed.

  (** ** One SELECT *)
  Notation eok ty e := (snd (collect ty e None) = None).
  Notation cols ty e := (fst (collect ty e None)).
  Lemma eok_kind : forall n ty ty', eok ty n -> eok ty' n.
  Proof.
    induction n as [n IH] using node_ind'. intros ty ty' H. rewrite Forall_forall in IH.
    assert (HP : plain n -> eok ty' n).
    { intros Hp. rewrite collect_plain in * by auto. rewrite collect_list_none in *. intros x Hx.
      pose proof (seen_kids _ _ Hx) as [Hk _]. eauto. }
    destruct n; try (apply HP; split; simpl; tauto); auto.
    simpl in *. rewrite (surjective_pairing (collect ty n None)) in H. rewrite (surjective_pairing (collect ty' n None)).
      simpl in *. eapply IH; eauto.
  Qed.

  Lemma expr_field_1 : forall ty a e le errs fs, expr_field low ty a e le errs = (fs, []) ->
      errs = [] /\ le = None /\ eok ty e /\ fs = [mk_field a (cols ty e)].
  Proof.
    intros ty a e le errs fs. unfold expr_field. rewrite collect_pass.
    destruct (snd (collect ty e None)) as [m|]; simpl; [intros H; inversion H; destruct errs; discriminate|].
    destruct le as [m|]; intros H; inversion H; subst; auto. destruct errs; discriminate.
  Qed.
  Lemma expr_field_2 : forall ty a e, eok ty e -> expr_field low ty a e None [] = ([mk_field a (cols ty e)], []).
  Proof.
    intros ty a e H. unfold expr_field. rewrite (surjective_pairing (collect ty e None)), H. reflexivity.
  Qed.
  Lemma expr_field_pending : forall ty a e m errs fs errs', expr_field low ty a e (Some m) errs = (fs, errs') -> errs' <> [].
  Proof. intros ty a e m errs fs errs' H ->. apply expr_field_1 in H. destruct H as (_ & H & _). discriminate. Qed.

  Definition conv (i : item) : field :=
    match i with
    | StarItem w a => mk_field (L low a) [mk_fcol (L low w) [] FStar]
    | ExprItem ty a e => mk_field (L low a) (cols ty e)
    end.
  Definition iok (i : item) : Prop := eok FReference (item_expr i).

  Lemma expr_fields_1 : forall ty es le errs fs le', expr_fields low ty es le errs = (fs, [], le') ->
      errs = [] /\ Forall iok (map (ExprItem ty []) es) /\ fs = map conv (map (ExprItem ty []) es) /\
      (le = None -> le' = None) /\ (le <> None -> le' = le /\ es = []).
  Proof.
    induction es as [|e es IH]; intros le errs fs le' H; simpl in H.
    - inversion H; subst. repeat (split; [solve [auto | constructor]|]). auto.
    - destruct (expr_field low ty [] e le errs) as [f1 errs1] eqn:E.
      destruct (expr_fields low ty es None errs1) as [[fs2 errs2] le2] eqn:E2. inversion H; subst.
      apply IH in E2. destruct E2 as (-> & H1 & -> & H2 & _). apply expr_field_1 in E. destruct E as (-> & -> & H3 & ->).
      split; auto. split; [constructor; auto; eapply eok_kind; eauto|]. split; auto. split; auto. congruence.
  Qed.
  Lemma expr_fields_2 : forall ty es, Forall iok (map (ExprItem ty []) es) ->
      expr_fields low ty es None [] = (map conv (map (ExprItem ty []) es), [], None).
  Proof.
    induction es as [|e es IH]; intros H; simpl; auto. inversion H; subst.
    rewrite expr_field_2 by (eapply eok_kind; eauto). rewrite IH by auto. reflexivity.
  Qed.
  Lemma opt_field_1 : forall ty e le errs fs le', opt_field low ty e le errs = (fs, [], le') ->
      errs = [] /\ Forall iok (opt_item ty e) /\ fs = map conv (opt_item ty e) /\
      (le = None -> le' = None) /\ (le <> None -> le' = le /\ e = Nil).
  Proof.
    intros ty e le errs fs le' H.
    assert (HE : e <> Nil -> errs = [] /\ Forall iok [ExprItem ty [] e] /\ fs = map conv [ExprItem ty [] e] /\
      (le = None -> le' = None) /\ (le <> None -> le' = le /\ e = Nil)).
    { intros He. unfold opt_field in H. assert (H' : (let '(f, errs0) := expr_field low ty [] e le errs in (f, errs0, None)) = (fs, [], le'))
        by (destruct e; auto; congruence).
      clear H. destruct (expr_field low ty [] e le errs) as [f1 errs1] eqn:E. inversion H'; subst.
      apply expr_field_1 in E. destruct E as (-> & -> & H3 & ->). split; auto.
      split; [constructor; auto; eapply eok_kind; eauto|]. split; auto. split; auto. congruence. }
    destruct e; try (apply HE; discriminate). simpl in *. inversion H; subst. repeat (split; [solve [auto|constructor]|]). auto.
  Qed.
  Lemma opt_field_2 : forall ty e, Forall iok (opt_item ty e) -> opt_field low ty e None [] = (map conv (opt_item ty e), [], None).
  Proof.
    intros ty e H.
    assert (HE : e <> Nil -> opt_field low ty e None [] = (map conv [ExprItem ty [] e], [], None)).
    { intros He. assert (HI : iok (ExprItem ty [] e)) by (destruct e; try congruence; inversion H; auto).
      unfold opt_field. rewrite (expr_field_2 ty [] e) by (eapply eok_kind; exact HI). destruct e; auto; congruence. }
    destruct e; try (apply HE; discriminate). reflexivity.
  Qed.
  Lemma select_fields_1 : forall l le errs fs le', select_fields low l le errs = (fs, [], le') ->
      errs = [] /\ Forall iok (flat_map field_item l) /\ fs = map conv (flat_map field_item l) /\
      (le = None -> le' = None) /\ (le <> None -> le' = le).
  Proof.
    induction l as [|n l IH]; intros le errs fs le' H.
    - simpl in H. inversion H; subst. repeat (split; [solve [auto|constructor]|]). auto.
    - destruct n; try (simpl in *; apply IH in H; exact H).
      assert (HE : n <> Nil -> errs = [] /\ Forall iok (ExprItem FReference as_ n :: flat_map field_item l) /\
        fs = map conv (ExprItem FReference as_ n :: flat_map field_item l) /\
        (le = None -> le' = None) /\ (le <> None -> le' = le)).
      { intros He.
        assert (H' : (let '(f, errs) := expr_field low FReference (L low as_) n le errs in
            let '(fs, errs, le) := select_fields low l None errs in (f ++ fs, errs, le)) = (fs, [], le'))
          by (destruct n; auto; congruence).
        clear H. destruct (expr_field low FReference (L low as_) n le errs) as [f1 errs1] eqn:E.
        destruct (select_fields low l None errs1) as [[fs2 errs2] le2] eqn:E2. inversion H'; subst.
        apply IH in E2. destruct E2 as (-> & H1 & -> & H2 & _). apply expr_field_1 in E. destruct E as (-> & -> & H3 & ->).
        split; auto. }
      destruct n; try (apply HE; discriminate). clear HE. simpl in H.
      destruct (select_fields low l le errs) as [[fs2 errs2] le2] eqn:E2. inversion H; subst.
      apply IH in E2. destruct E2 as (-> & H1 & -> & H2 & H3). split; auto. split; [constructor; auto; reflexivity|]. auto.
  Qed.
  Lemma select_fields_2 : forall l, Forall iok (flat_map field_item l) ->
      select_fields low l None [] = (map conv (flat_map field_item l), [], None).
  Proof.
    induction l as [|n l IH]; intros H; auto.
    destruct n; try (simpl in *; apply IH; exact H).
    assert (HE : n <> Nil -> select_fields low (SelectField n wild as_ :: l) None [] =
      (map conv (ExprItem FReference as_ n :: flat_map field_item l), [], None)).
    { intros He. assert (HI : Forall iok (ExprItem FReference as_ n :: flat_map field_item l)) by (destruct n; auto; congruence).
      inversion HI; subst.
      assert (E : select_fields low (SelectField n wild as_ :: l) None [] =
        (let '(f, errs) := expr_field low FReference (L low as_) n None [] in
            let '(fs, errs, le) := select_fields low l None errs in (f ++ fs, errs, le))) by (destruct n; auto; congruence).
      rewrite E, expr_field_2 by assumption. rewrite IH by assumption. reflexivity. }
    destruct n; try (apply HE; discriminate). simpl in *. inversion H; subst. rewrite IH by auto. reflexivity.
  Qed.

  (** FROM *)
  Definition join_tables (l r on : node) (le : option gostring) : list table * list field * option gostring :=
      let '(t1, f1, le) := collect_tables low l le in
      let '(t2, f2, le) := collect_tables low r le in
      match on with
      | Nil => (t1 ++ t2, f1 ++ f2, le)
      | _ =>
          let '(cols, le) := collect_expr low FCondition on le in
          (t1 ++ t2, f1 ++ f2 ++ [mk_field [] cols], le)
      end.
  Lemma collect_join : forall l r on u le, collect_tables low (Join l r on u) le = join_tables l r on le.
  Proof. reflexivity. Qed.
  Lemma collect_paren : forall l r on u a le, collect_tables low (TableSource (Join l r on u) a) le = join_tables l r on le.
  Proof. reflexivity. Qed.
  Definition on_item (on : node) : list node := match on with Nil => [] | _ => [on] end.
  Lemma join_1 : forall l r on le ts fs,
      (forall n le ts fs, n = l \/ n = r -> collect_tables low n le = (ts, fs, None) -> le = None /\
         exists tss ons, from_clause n tss ons /\ ts = map (as_table low) tss /\
           Forall iok (map (ExprItem FCondition []) ons) /\ fs = map conv (map (ExprItem FCondition []) ons)) ->
      join_tables l r on le = (ts, fs, None) -> le = None /\
      exists t1 t2 o1 o2, from_clause l t1 o1 /\ from_clause r t2 o2 /\ ts = map (as_table low) (t1 ++ t2) /\
        Forall iok (map (ExprItem FCondition []) (o1 ++ o2 ++ on_item on)) /\
        fs = map conv (map (ExprItem FCondition []) (o1 ++ o2 ++ on_item on)).
  Proof.
    intros l r on le ts fs IH H. unfold join_tables in H.
    destruct (collect_tables low l le) as [[t1 f1] le1] eqn:E1. destruct (collect_tables low r le1) as [[t2 f2] le2] eqn:E2.
    assert (HO : le2 = None /\ eok FCondition on /\ ts = t1 ++ t2 /\ fs = f1 ++ f2 ++ map conv (map (ExprItem FCondition []) (on_item on))).
    { assert (HN : on <> Nil -> le2 = None /\ eok FCondition on /\ ts = t1 ++ t2 /\ fs = f1 ++ f2 ++ map conv (map (ExprItem FCondition []) [on])).
      { intros Hn. rewrite collect_pass in H. assert (H' : (t1 ++ t2, f1 ++ f2 ++ [mk_field [] (cols FCondition on)], set_err (snd (collect FCondition on None)) le2) = (ts, fs, None))
          by (destruct on; auto; congruence).
        clear H. inversion H'; subst. destruct (snd (collect FCondition on None)) eqn:EO; [discriminate|]. simpl in *. subst. auto. }
      destruct on; try (apply HN; discriminate). inversion H; subst. simpl. rewrite app_nil_r. auto. }
    destruct HO as (-> & HE & -> & ->).
    destruct (IH r le1 t2 f2) as (-> & t2' & o2 & R1 & -> & R2 & ->); auto.
    destruct (IH l le t1 f1) as (-> & t1' & o1 & L1 & -> & L2 & ->); auto. split; auto.
    exists t1', t2', o1, o2. split; auto. split; auto. split; [now rewrite map_app|].
    rewrite !map_app. split; auto. rewrite !Forall_app. split; auto. split; auto.
    destruct on; simpl; repeat constructor; unfold iok; simpl item_expr; eapply eok_kind; exact HE.
  Qed.
  Lemma collect_tables_1 : forall n le ts fs, collect_tables low n le = (ts, fs, None) -> le = None /\
         exists tss ons, from_clause n tss ons /\ ts = map (as_table low) tss /\
           Forall iok (map (ExprItem FCondition []) ons) /\ fs = map conv (map (ExprItem FCondition []) ons).
  Proof.
    fix IH 1.
    assert (HJ : forall l r on u le ts fs, 
      (forall n le ts fs, n = l \/ n = r -> collect_tables low n le = (ts, fs, None) -> le = None /\
         exists tss ons, from_clause n tss ons /\ ts = map (as_table low) tss /\
           Forall iok (map (ExprItem FCondition []) ons) /\ fs = map conv (map (ExprItem FCondition []) ons)) ->
      join_tables l r on le = (ts, fs, None) -> le = None /\
      exists tss ons, from_clause (Join l r on u) tss ons /\ ts = map (as_table low) tss /\
           Forall iok (map (ExprItem FCondition []) ons) /\ fs = map conv (map (ExprItem FCondition []) ons)).
    { intros l r on u le ts fs HI H. apply join_1 in H; auto.
      destruct H as (-> & t1 & t2 & o1 & o2 & F1 & F2 & -> & HK & ->). split; auto.
      exists (t1 ++ t2), (o1 ++ o2 ++ on_item on). split; [now apply from_join|]. auto. }
    destruct n; intros le ts fs H; try (simpl in H; discriminate H).
    - simpl in H. inversion H; subst. split; auto. exists [], []. split; [constructor|]. repeat (split; [solve [auto|constructor]|]). auto.
    - destruct n; try (simpl in H; discriminate H).
      + simpl in H. inversion H; subst. split; auto. eexists _, _. split; [constructor|]. split; [reflexivity|]. split; [constructor|reflexivity].
      + simpl in H. destruct schema; [|discriminate H]. inversion H; subst. split; auto. eexists _, _. split; [constructor|].
        split; [reflexivity|]. split; [constructor|reflexivity].
      + rewrite collect_paren in H. apply HJ with (u := using_) in H.
        * destruct H as (-> & tss & ons & HF & H). split; auto. exists tss, ons. split; auto. now apply from_paren.
        * intros n le0 ts0 fs0 [->| ->] Hn; eapply IH; eassumption.
    - rewrite collect_join in H. apply HJ with (u := using_) in H; [exact H|].
      intros n le0 ts0 fs0 [->| ->] Hn; eapply IH; eassumption.
  Qed.
  Lemma collect_tables_2 : forall n tss ons, from_clause n tss ons -> Forall iok (map (ExprItem FCondition []) ons) ->
      collect_tables low n None = (map (as_table low) tss, map conv (map (ExprItem FCondition []) ons), None).
  Proof.
    intros n tss ons H. induction H; intros HK; try reflexivity.
    - rewrite collect_paren. rewrite collect_join in IHfrom_clause. auto.
    - rewrite !map_app in *. rewrite !Forall_app in HK. destruct HK as (K1 & K2 & K3).
      rewrite collect_join. unfold join_tables. rewrite IHfrom_clause1, IHfrom_clause2 by auto.
      assert (HN : on <> Nil -> (let '(cols, le) := collect_expr low FCondition on None in
          (map (as_table low) t1 ++ map (as_table low) t2, map conv (map (ExprItem FCondition []) o1) ++ map conv (map (ExprItem FCondition []) o2) ++ [mk_field [] cols], le))
        = (map (as_table low) t1 ++ map (as_table low) t2,
           map conv (map (ExprItem FCondition []) o1) ++ map conv (map (ExprItem FCondition []) o2) ++ [mk_field [] (cols FCondition on)], None)).
      { intros Hn. assert (HO : iok (ExprItem FCondition [] on)) by (destruct on; try congruence; inversion K3; auto).
        apply eok_kind with (ty' := FCondition) in HO. simpl item_expr in HO.
        rewrite (surjective_pairing (collect FCondition on None)), HO. reflexivity. }
      destruct on; try (rewrite HN by discriminate; reflexivity). simpl. rewrite !app_nil_r. reflexivity.
  Qed.
  Lemma from_clause_fun : forall n t o, from_clause n t o -> forall t' o', from_clause n t' o' -> t = t' /\ o = o'.
  Proof.
    intros n t o H. induction H; intros t' o' H'; inversion H'; subst; auto.
    match goal with A : from_clause l _ _, B : from_clause r _ _, C : from_clause l ?x ?y, D : from_clause r ?z ?w |- _ =>
      idtac end.
    destruct (IHfrom_clause1 _ _ ltac:(eassumption)) as [-> ->]. destruct (IHfrom_clause2 _ _ ltac:(eassumption)) as [-> ->]. auto.
  Qed.

  (** ** Entering a SELECT *)
  Definition sok (n : node) (tss : list (gostring * option gostring)) (ons : list node) : Prop :=
    ~ has_window n /\ from_clause (select_from n) tss ons /\ Forall iok (items ons n).
  Definition nonempty (f : field) : bool := match f_cols f with [] => false | _ => true end.
  Definition the_scope (n : node) (tss : list (gostring * option gostring)) (ons : list node) : scope :=
    Scope root_scope_name (filter nonempty (map conv (items ons n))) [] (map (as_table low) tss) [].

  Definition limit_field (lim : node) (le : option gostring) (errs : list gostring) :=
          match lim with
          | Limit cnt off =>
              let '(fa, errs) := expr_field low FReference [] cnt le errs in
              let '(fb, errs) := expr_field low FReference [] off None errs in (fa ++ fb, errs, None)
          | _ => ([], errs, le)
          end.
  Lemma limit_field_1 : forall lim le errs fs le', limit_field lim le errs = (fs, [], le') ->
      errs = [] /\ Forall iok (limit_items lim) /\ fs = map conv (limit_items lim) /\
      (le = None -> le' = None) /\ (le <> None -> le' = le).
  Proof.
    intros lim le errs fs le' H. destruct lim; try (inversion H; subst; repeat (split; [solve [auto|constructor]|]); auto).
    simpl in H. destruct (expr_field low FReference [] lim1 le errs) as [fa e1] eqn:E1.
    destruct (expr_field low FReference [] lim2 None e1) as [fb e2] eqn:E2. inversion H; subst.
    apply expr_field_1 in E2. destruct E2 as (-> & _ & K2 & ->). apply expr_field_1 in E1. destruct E1 as (-> & -> & K1 & ->).
    split; auto. split; [constructor; auto|]. split; auto.
  Qed.
  Lemma limit_field_2 : forall lim, Forall iok (limit_items lim) -> limit_field lim None [] = (map conv (limit_items lim), [], None).
  Proof.
    intros lim H. destruct lim; try reflexivity. inversion H; subst. match goal with H : Forall iok [_] |- _ => inversion H; subst end.
    simpl. rewrite expr_field_2 by assumption. rewrite expr_field_2 by assumption. reflexivity.
  Qed.
  Definition from_field (from : node) (le : option gostring) (errs : list gostring) :=
          match from with
          | Nil => ([], [], errs, le)
          | _ =>
              let '(ts, fs, le) := collect_tables low from le in
              (ts, fs, match le with Some m => errs ++ [m] | None => errs end, None)
          end.
  Lemma from_field_1 : forall from le errs ts fs le', from_field from le errs = (ts, fs, [], le') ->
      errs = [] /\ (le = None -> le' = None) /\ (le <> None -> le' = le /\ from = Nil) /\
      exists tss ons, from_clause from tss ons /\ ts = map (as_table low) tss /\
           Forall iok (map (ExprItem FCondition []) ons) /\ fs = map conv (map (ExprItem FCondition []) ons).
  Proof.
    intros from le errs ts fs le' H.
    assert (HN : from <> Nil -> errs = [] /\ (le = None -> le' = None) /\ (le <> None -> le' = le /\ from = Nil) /\
      exists tss ons, from_clause from tss ons /\ ts = map (as_table low) tss /\
           Forall iok (map (ExprItem FCondition []) ons) /\ fs = map conv (map (ExprItem FCondition []) ons)).
    { intros Hn. assert (H' : (let '(ts, fs, le) := collect_tables low from le in
              (ts, fs, match le with Some m => errs ++ [m] | None => errs end, None)) = (ts, fs, [], le')) by (destruct from; auto; congruence).
      clear H. destruct (collect_tables low from le) as [[ts0 fs0] le0] eqn:E. inversion H'; subst.
      destruct le0 as [m|]; [destruct errs; discriminate|]. apply collect_tables_1 in E. destruct E as [-> E].
      split; auto. split; auto. split; [congruence|]. exact E. }
    destruct from; try (apply HN; discriminate). inversion H; subst. split; auto. split; auto. split; auto.
    exists [], []. split; [constructor|]. split; auto. split; [constructor|reflexivity].
  Qed.
  Lemma from_field_2 : forall from tss ons, from_clause from tss ons -> Forall iok (map (ExprItem FCondition []) ons) ->
      from_field from None [] = (map (as_table low) tss, map conv (map (ExprItem FCondition []) ons), [], None).
  Proof.
    intros from tss ons H HK. pose proof (collect_tables_2 _ _ _ H HK) as E.
    destruct from; try (unfold from_field; rewrite E; reflexivity). inversion H; subst. reflexivity.
  Qed.
  Lemma enter_select : forall ctes fields from wh g h ws o lim vals c,
    enter_scope low (Select ctes fields from wh g h ws o lim vals) c =
        let '(f1, errs, le) := select_fields low fields (c_last c) (c_errors c) in
        let '(tables, f2, errs, le) := from_field from le errs in
        let '(f3, errs, le) := opt_field low FCondition wh le errs in
        let '(f4, errs, le) := expr_fields low FReference g le errs in
        let '(f5, errs, le) := opt_field low FReference h le errs in
        let errs := match ws with [] => errs | _ => errs ++ [err_window] end in
        let '(f6, errs, le) := expr_fields low FReference o le errs in
        let '(f7, errs, le) := limit_field lim le errs in
        let le := if vals then Some err_values_stmt else le in
        let le := match ctes with [] => le | _ => Some err_with end in
        let sc := Scope root_scope_name (filter nonempty (f1 ++ f2 ++ f3 ++ f4 ++ f5 ++ f6 ++ f7)) [] tables [] in
        {| c_scopes := match c_scopes c with [] => [sc] | l => l end; c_errors := errs; c_last := le |}.
  Proof. reflexivity. Qed.

  Lemma enter_1 : forall n c, is_select n -> c_errors (enter_scope low n c) = [] ->
      c_errors c = [] /\ (c_last c <> None -> c_last (enter_scope low n c) <> None /\ select_from n = Nil) /\
      (has_with n -> c_last (enter_scope low n c) <> None) /\
      exists tss ons, sok n tss ons /\ (c_scopes c = [] -> c_scopes (enter_scope low n c) = [the_scope n tss ons]).
  Proof.
    intros n c HS HE. destruct n; try (elim HS). rewrite enter_select in *. revert HE.
    destruct (select_fields low fields (c_last c) (c_errors c)) as [[f1 e1] l1] eqn:E1.
    destruct (from_field n1 l1 e1) as [[[ts f2] e2] l2] eqn:E2.
    destruct (opt_field low FCondition n2 l2 e2) as [[f3 e3] l3] eqn:E3.
    destruct (expr_fields low FReference group_by l3 e3) as [[f4 e4] l4] eqn:E4.
    destruct (opt_field low FReference n3 l4 e4) as [[f5 e5] l5] eqn:E5.
    cbv zeta. destruct (expr_fields low FReference order_by l5 (match windows with [] => e5 | _ => e5 ++ [err_window] end)) as [[f6 e6] l6] eqn:E6.
    destruct (limit_field n4 l6 e6) as [[f7 e7] l7] eqn:E7. cbv zeta beta iota in *. intros HE. simpl in HE. subst e7.
    apply limit_field_1 in E7. destruct E7 as (-> & K7 & -> & N7 & P7).
    apply expr_fields_1 in E6. destruct E6 as (H6 & K6 & -> & N6 & P6).
    assert (Hw : windows = [] /\ e5 = []) by (destruct windows; [auto|destruct e5; discriminate]). destruct Hw as [-> ->].
    apply opt_field_1 in E5. destruct E5 as (-> & K5 & -> & N5 & P5).
    apply expr_fields_1 in E4. destruct E4 as (-> & K4 & -> & N4 & P4).
    apply opt_field_1 in E3. destruct E3 as (-> & K3 & -> & N3 & P3).
    apply from_field_1 in E2. destruct E2 as (-> & N2 & P2 & tss & ons & HF & -> & K2 & ->).
    apply select_fields_1 in E1. destruct E1 as (H1 & K1 & -> & N1 & P1).
    split; auto. split; [|split].
    - intros HP. assert (l1 <> None) as Q1 by (rewrite P1; auto). destruct (P2 Q1) as [-> ->].
      destruct (P3 Q1) as [-> _]. destruct (P4 Q1) as [-> _]. destruct (P5 Q1) as [-> _]. destruct (P6 Q1) as [-> _]. rewrite (P7 Q1).
      split; auto. simpl. destruct ctes; [|discriminate]. destruct values_; [discriminate|auto].
    - simpl. destruct ctes; [tauto|discriminate].
    - exists tss, ons. split.
      + split; [simpl; tauto|]. split; auto. simpl. rewrite !Forall_app. tauto.
      + intros HC. simpl. rewrite HC. unfold the_scope. simpl items. now rewrite !map_app.
  Qed.
  Lemma enter_2 : forall n c tss ons, is_select n -> sok n tss ons -> c_errors c = [] -> c_last c = None ->
      ~ has_with n -> ~ has_values n ->
      enter_scope low n c = mk_coll (match c_scopes c with [] => [the_scope n tss ons] | l => l end) [] None.
  Proof.
    intros n c tss ons HS (HW & HF & HK) HE HL Hw Hv. destruct n; try (elim HS). rewrite enter_select, HE, HL.
    simpl in HW, HF, HK, Hw, Hv. rewrite !Forall_app in HK. destruct HK as (K1 & K2 & K3 & K4 & K5 & K6 & K7).
    destruct windows; [|tauto]. destruct ctes; [|tauto]. destruct values_; [tauto|].
    rewrite select_fields_2 by auto. rewrite (from_field_2 _ _ _ HF) by auto. rewrite opt_field_2 by auto.
    rewrite expr_fields_2 by auto. rewrite opt_field_2 by auto. cbv zeta. rewrite expr_fields_2 by auto. rewrite limit_field_2 by auto.
    unfold the_scope. simpl items. rewrite !map_app. reflexivity.
  Qed.
  Lemma enter_other : forall n c, ~ is_select n -> enter_scope low n c = c.
  Proof. intros n c H. destruct n; simpl in *; tauto. Qed.
  Lemma is_select_dec : forall n, is_select n \/ ~ is_select n.
  Proof. destruct n; simpl; auto. Qed.

  (** ** The whole statement *)
  Notation walk_ := (walk (enter_scope low) leave_scope).
  Lemma walk_eq : forall n c, walk_ n c = fold_left (fun s k => walk_ k s) (kids n) (enter_scope low n c).
  Proof.
    intros n c. destruct n; try reflexivity; rewrite walk_kids by discriminate; reflexivity.
  Qed.
  Lemma walk_scopes : forall n c, c_scopes c <> [] -> c_scopes (walk_ n c) = c_scopes c.
  Proof.
    induction n as [n IH] using node_ind'. intros c HC. rewrite walk_eq.
    assert (HE : c_scopes (enter_scope low n c) = c_scopes c).
    { destruct (is_select_dec n) as [HS|HS]; [|now rewrite enter_other]. destruct n; try (elim HS). rewrite enter_select. cbv zeta.
      repeat match goal with |- context [let '(_, _) := ?x in _] => destruct x as [? ?] eqn:?
                           | |- context [match ?x with (_, _) => _ end] => destruct x as [? ?] eqn:? end.
      simpl. destruct (c_scopes c); congruence. }
    assert (HF : forall l c', (forall k, In k l -> In k (kids n)) -> c_scopes c' = c_scopes c ->
      c_scopes (fold_left (fun s k => walk_ k s) l c') = c_scopes c).
    { rewrite Forall_forall in IH. induction l as [|k l IHl]; intros c' Hl Hc'; simpl; auto.
      apply IHl; [intros; apply Hl; simpl; auto|]. rewrite IH; auto; [apply Hl; simpl; auto|congruence]. }
    apply HF; auto.
  Qed.
  Lemma walk_errors : forall n c, c_errors (walk_ n c) = [] -> c_errors c = [] /\
      forall m, inside n m -> is_select m -> exists tss ons, sok m tss ons.
  Proof.
    induction n as [n IH] using node_ind'. intros c H. rewrite walk_eq in H. rewrite Forall_forall in IH.
    assert (HF : forall l c', (forall k, In k l -> In k (kids n)) -> c_errors (fold_left (fun s k => walk_ k s) l c') = [] ->
      c_errors c' = [] /\ forall k m, In k l -> inside k m -> is_select m -> exists tss ons, sok m tss ons).
    { induction l as [|k l IHl]; intros c' Hl Hc'; simpl in *; [split; auto; tauto|].
      apply IHl in Hc'; auto. destruct Hc' as [H1 H2]. apply IH in H1; auto. destruct H1 as [H1 H3]. split; auto.
      intros k' m [<-|Hk] Hm Hs; eauto. }
    apply HF in H; auto. destruct H as [H1 H2].
    destruct (is_select_dec n) as [HS|HS].
    - pose proof (enter_1 n c HS H1) as (E1 & _ & _ & tss & ons & E2 & _). split; auto.
      intros m Hm Hs. inversion Hm; subst; eauto.
    - rewrite enter_other in H1 by auto. split; auto. intros m Hm Hs. inversion Hm; subst; [tauto|eauto].
  Qed.
  Lemma walk_clean : forall n c, c_errors c = [] -> c_last c = None ->
      (forall m, inside n m -> is_select m -> ~ has_with m /\ ~ has_values m /\ exists tss ons, sok m tss ons) ->
      c_errors (walk_ n c) = [] /\ c_last (walk_ n c) = None.
  Proof.
    induction n as [n IH] using node_ind'. intros c H1 H2 HM. rewrite walk_eq. rewrite Forall_forall in IH.
    assert (HF : forall l c', (forall k, In k l -> In k (kids n)) -> c_errors c' = [] -> c_last c' = None ->
      c_errors (fold_left (fun s k => walk_ k s) l c') = [] /\ c_last (fold_left (fun s k => walk_ k s) l c') = None).
    { induction l as [|k l IHl]; intros c' Hl A B; simpl; auto.
      destruct (IH k (Hl k (or_introl eq_refl)) c' A B) as [A' B']; [|apply IHl; simpl in *; auto].
      intros m Hm Hs. apply HM; auto. econstructor; [apply Hl; simpl; auto|auto]. }
    destruct (is_select_dec n) as [HS|HS].
    - destruct (HM n (inside_self n) HS) as (W & V & tss & ons & HK). rewrite (enter_2 n c tss ons) by auto. apply HF; auto.
    - rewrite enter_other by auto. apply HF; auto.
  Qed.
  (** A pending error is never lost. *)
  Lemma walk_pending : forall n c, c_errors (walk_ n c) = [] ->
      (c_last c <> None -> c_last (walk_ n c) <> None /\ forall m, inside n m -> is_select m -> select_from m = Nil) /\
      (forall m q, inside n m -> is_select m -> has_with m -> (exists k, In k (kids m) /\ inside k q) -> is_select q -> select_from q = Nil).
  Proof.
    induction n as [n IH] using node_ind'. intros c H. rewrite walk_eq in *. rewrite Forall_forall in IH.
    assert (HF : forall l c', (forall k, In k l -> In k (kids n)) -> c_errors (fold_left (fun s k => walk_ k s) l c') = [] ->
      (c_last c' <> None -> c_last (fold_left (fun s k => walk_ k s) l c') <> None /\
         forall k m, In k l -> inside k m -> is_select m -> select_from m = Nil) /\
      (forall j m q, In j l -> inside j m -> is_select m -> has_with m -> (exists k, In k (kids m) /\ inside k q) -> is_select q -> select_from q = Nil)).
    { induction l as [|k l IHl]; intros c' Hl Hc'; simpl in *; [split; [intros; split; auto; tauto|tauto]|].
      assert (HE : c_errors (walk_ k c') = []).
      { clear -Hc'. revert Hc'. generalize (walk_ k c'). induction l as [|x l IHl]; intros d H; simpl in *; auto.
        apply IHl in H. now apply walk_errors in H. }
      destruct (IH k (Hl k (or_introl eq_refl)) c' HE) as [A B].
      destruct (IHl (walk_ k c')) as [A' B']; auto. split.
      - intros HP. destruct (A HP) as [A1 A2]. destruct (A' A1) as [A3 A4]. split; auto.
        intros k' m [<-|Hk]; eauto.
      - intros j m q [<-|Hj]; eauto. }
    assert (HE : c_errors (enter_scope low n c) = []).
    { clear -H. revert H. generalize (enter_scope low n c). induction (kids n) as [|x l IHl]; intros d H; simpl in *; auto.
      apply IHl in H. now apply walk_errors in H. }
    destruct (HF (kids n) (enter_scope low n c)) as [A B]; auto.
    destruct (is_select_dec n) as [HS|HS].
    - pose proof (enter_1 n c HS HE) as (_ & E1 & E2 & _). split.
      + intros HP. destruct (E1 HP) as [E3 E4]. destruct (A E3) as [A1 A2]. split; auto.
        intros m Hm Hs. inversion Hm; subst; eauto.
      + intros m q Hm Hs Hw (k & Hk & Hq) Hsq. inversion Hm; subst; [|eapply B; eauto].
        destruct (A (E2 Hw)) as [_ A2]. eauto.
    - rewrite enter_other in * by auto. split.
      + intros HP. destruct (A HP) as [A1 A2]. split; auto. intros m Hm Hs. inversion Hm; subst; [tauto|eauto].
      + intros m q Hm Hs Hw Hq Hsq. inversion Hm; subst; [tauto|]. eapply B; eauto.
  Qed.
  Lemma collect_scopes_1 : forall root scs, collect_scopes low root = inl scs ->
      is_select root /\ c_errors (walk_ root (mk_coll [] [] None)) = [] /\
      exists tss ons, sok root tss ons /\ scs = [the_scope root tss ons].
  Proof.
    intros root scs H. assert (HS : is_select root) by (destruct root; simpl in H; try discriminate; exact I).
    assert (E : c_errors (walk_ root (mk_coll [] [] None)) = [] /\ scs = c_scopes (walk_ root (mk_coll [] [] None))).
    { destruct root; try (elim HS). unfold collect_scopes in H. destruct (c_errors _) eqn:E; [|discriminate].
      inversion H. auto. }
    destruct E as [E1 ->]. split; auto. split; auto. rewrite walk_eq in *.
    assert (HE : c_errors (enter_scope low root (mk_coll [] [] None)) = []).
    { clear -E1. revert E1. generalize (enter_scope low root (mk_coll [] [] None)).
      induction (kids root) as [|x l IHl]; intros d H; simpl in *; auto. apply IHl in H. now apply walk_errors in H. }
    pose proof (enter_1 _ _ HS HE) as (_ & _ & _ & tss & ons & HK & HSc). specialize (HSc eq_refl).
    exists tss, ons. split; auto. rewrite <- HSc.
    assert (HN : c_scopes (enter_scope low root (mk_coll [] [] None)) <> []) by (rewrite HSc; discriminate).
    clear -HN. revert HN. generalize (enter_scope low root (mk_coll [] [] None)).
    induction (kids root) as [|x l IHl]; intros d H; simpl in *; auto. rewrite IHl by (rewrite walk_scopes; auto). now apply walk_scopes.
  Qed.

  (** ** Table names *)
  Notation twalk := (walk (enter_table low) leave_table).
  Lemma twalk_eq : forall n c, twalk n c = leave_table n (fold_left (fun s k => twalk k s) (kids n) (enter_table low n c)).
  Proof. intros n c. destruct n; try reflexivity; rewrite walk_kids by discriminate; reflexivity. Qed.
  (** The names hidden by the stack *)
  Definition stack_of (tc : list (list gostring)) (hidden : gostring -> Prop) : Prop :=
    forall x, (exists l, In l tc /\ In x l) <-> exists c, hidden c /\ x = map low c.
  Lemma is_cte_iff : forall tc hidden x, stack_of (tc_ctes tc) hidden ->
      (is_cte tc x = true <-> exists c, hidden c /\ map low c = x).
  Proof.
    intros tc hidden x H. unfold is_cte. rewrite existsb_exists. specialize (H x). split.
    - intros (l & H1 & H2). apply str_in_iff in H2. destruct (proj1 H) as (c & A & B); eauto.
    - intros (c & A & B). destruct (proj2 H) as (l & H1 & H2); eauto. exists l. split; auto. now apply str_in_iff.
  Qed.
  Lemma cte_names_In : forall ctes x, In x (cte_names low ctes) <-> exists c, names_of ctes c /\ x = map low c.
  Proof.
    intros ctes x. unfold cte_names. rewrite in_flat_map. split.
    - intros (n & H1 & H2). destruct n; simpl in H2; try tauto. destruct H2 as [<-|[]]. exists name. split; auto. eexists; eauto.
    - intros (c & (q & H1) & ->). exists (Cte c q). split; auto. simpl; auto.
  Qed.
  Definition source_error (n : node) : list gostring :=
    match n with
    | TableSource src _ => tc_errors (add_table low src (mk_tc [] [] []))
    | _ => []
    end.
  Lemma enter_table_ctes : forall n tc hidden, stack_of (tc_ctes tc) hidden ->
      stack_of (tc_ctes (enter_table low n tc)) (fun c => hidden c \/ names_of (ctes_of n) c).
  Proof.
    intros n tc hidden H.
    assert (HN : (forall c, ~ names_of (ctes_of n) c) -> stack_of (tc_ctes tc) (fun c => hidden c \/ names_of (ctes_of n) c)).
    { intros Hn x. rewrite (H x). split; intros (c & A & B); exists c; split; auto. destruct A as [A|A]; auto. now elim (Hn c). }
    destruct n; try (apply HN; intros c [q Hq]; elim Hq).
    - simpl. destruct ctes as [|c0 ctes]; [apply HN; intros c [q Hq]; elim Hq|]. intros x. split.
      + intros (l & [Hl|Hl] & Hx).
        * subst l. change (In x (cte_names low (c0 :: ctes))) in Hx. apply cte_names_In in Hx. destruct Hx as (c & A & B). eauto.
        * destruct (proj1 (H x)) as (c & A & B); eauto.
      + intros (c & [A|A] & B).
        * destruct (proj2 (H x)) as (l & A1 & A2); eauto. exists l. split; auto. now right.
        * exists (cte_names low (c0 :: ctes)). split; [now left|]. apply cte_names_In. eauto.
    - assert (E : tc_ctes (enter_table low (TableSource n as_) tc) = tc_ctes tc).
      { simpl. destruct n; simpl; auto. destruct schema; simpl; auto. destruct (is_cte tc (L low name)); auto. }
      rewrite E. apply HN. intros c [q Hq]; elim Hq.
  Qed.
  Lemma enter_table_errors : forall n tc, tc_errors (enter_table low n tc) = tc_errors tc ++ source_error n.
  Proof.
    intros n tc. destruct n; simpl; rewrite ?app_nil_r; auto.
    - destruct ctes; simpl; auto.
    - destruct n; simpl; rewrite ?app_nil_r; auto. destruct schema; simpl; auto. destruct (is_cte tc (L low name)); simpl; now rewrite app_nil_r.
  Qed.
  Lemma enter_table_tables : forall n tc hidden, stack_of (tc_ctes tc) hidden -> exists new,
      tc_tables (enter_table low n tc) = tc_tables tc ++ new /\
      forall t, In t new <-> exists name a, n = TableSource (TableName [] name) a /\ t = map low name /\
        ~ exists c, hidden c /\ map low c = map low name.
  Proof.
    intros n tc hidden H.
    assert (HN : (forall name a, n <> TableSource (TableName [] name) a) -> tc_tables (enter_table low n tc) = tc_tables tc -> exists new,
      tc_tables (enter_table low n tc) = tc_tables tc ++ new /\
      forall t, In t new <-> exists name a, n = TableSource (TableName [] name) a /\ t = map low name /\
        ~ exists c, hidden c /\ map low c = map low name).
    { intros Hn E. exists []. rewrite app_nil_r. split; auto. intros t. split; [simpl; tauto|]. intros (nm & a & E' & _). now apply Hn in E'. }
    destruct n; try (apply HN; [discriminate|reflexivity]).
    - apply HN; [discriminate|]. simpl. destruct ctes; reflexivity.
    - destruct n; try (apply HN; [discriminate|reflexivity]). destruct schema as [|s0 schema]; [|apply HN; [discriminate|reflexivity]].
      simpl. pose proof (is_cte_iff tc hidden (L low name) H) as HI. destruct (is_cte tc (L low name)).
      + exists []. rewrite app_nil_r. split; auto. intros t. split; [simpl; tauto|]. intros (nm & a & E & -> & Hh). inversion E; subst. apply Hh, HI; auto.
      + exists [L low name]. split; auto. intros t. split.
        * intros [<-|[]]. exists name, as_. split; auto. split; auto. intros Hc. apply HI in Hc. discriminate.
        * intros (nm & a & E & -> & Hh). inversion E; subst. now left.
  Qed.
  Lemma leave_enter_ctes : forall n tc tc', tc_ctes tc' = tc_ctes (enter_table low n tc) -> tc_ctes (leave_table n tc') = tc_ctes tc.
  Proof.
    intros n tc tc' H. destruct n; simpl in *; auto.
    - destruct ctes; simpl in *; auto. now rewrite H.
    - rewrite H. destruct n; simpl; auto. destruct schema; simpl; auto. destruct (is_cte tc (L low name)); auto.
  Qed.
  Lemma leave_tables : forall n tc, tc_tables (leave_table n tc) = tc_tables tc /\ tc_errors (leave_table n tc) = tc_errors tc.
  Proof. intros n tc. destruct n; simpl; auto. destruct ctes; auto. Qed.

  Lemma reads_iff : forall hidden n t, reads low hidden n t <->
      (exists name a, n = TableSource (TableName [] name) a /\ t = map low name /\ ~ exists c, hidden c /\ map low c = map low name) \/
      (exists k, In k (kids n) /\ reads low (fun c => hidden c \/ names_of (ctes_of n) c) k t).
  Proof.
    intros hidden n t. split.
    - intros H. inversion H; subst; [left; eauto 6|right; eauto].
    - intros [(nm & a & -> & -> & H)|(k & H1 & H2)]; [now constructor|econstructor; eauto].
  Qed.
  Lemma twalk_spec : forall n tc hidden, stack_of (tc_ctes tc) hidden ->
      tc_ctes (twalk n tc) = tc_ctes tc /\
      (exists new, tc_tables (twalk n tc) = tc_tables tc ++ new /\ forall t, In t new <-> reads low hidden n t) /\
      (exists errs, tc_errors (twalk n tc) = tc_errors tc ++ errs /\ forall e, In e errs <-> exists m, inside n m /\ In e (source_error m)).
  Proof.
    induction n as [n IH] using node_ind'. intros tc hidden H. rewrite twalk_eq. rewrite Forall_forall in IH.
    destruct (leave_tables n (fold_left (fun s k => twalk k s) (kids n) (enter_table low n tc))) as [-> ->].
    set (hidden' := fun c => hidden c \/ names_of (ctes_of n) c).
    assert (HF : forall l c, (forall k, In k l -> In k (kids n)) -> stack_of (tc_ctes c) hidden' ->
      let r := fold_left (fun s k => twalk k s) l c in
      tc_ctes r = tc_ctes c /\
      (exists new, tc_tables r = tc_tables c ++ new /\ forall t, In t new <-> exists k, In k l /\ reads low hidden' k t) /\
      (exists errs, tc_errors r = tc_errors c ++ errs /\ forall e, In e errs <-> exists k m, In k l /\ inside k m /\ In e (source_error m))).
    { induction l as [|k l IHl]; intros c Hl Hc; simpl.
      - split; auto. split; exists []; rewrite app_nil_r; (split; [reflexivity|]); intros x; (split; [simpl; tauto|]).
        + intros (k & [] & _).
        + intros (k & m & [] & _).
      - destruct (IH k (Hl k (or_introl eq_refl)) c hidden' Hc) as (A1 & (n1 & A2 & A3) & (e1 & A4 & A5)).
        assert (Hc' : stack_of (tc_ctes (twalk k c)) hidden') by (rewrite A1; auto).
        destruct (IHl (twalk k c)) as (B1 & (n2 & B2 & B3) & (e2 & B4 & B5)); auto; [simpl in *; auto|].
        split; [congruence|]. split.
        + exists (n1 ++ n2). rewrite B2, A2, app_assoc. split; auto. intros t. rewrite in_app_iff, A3, B3. split.
          * intros [HH|(k' & H1 & H2)]; [exists k; auto|exists k'; auto].
          * intros (k' & [<-|H1] & H2); [auto|right; eauto].
        + exists (e1 ++ e2). rewrite B4, A4, app_assoc. split; auto. intros t. rewrite in_app_iff, A5, B5. split.
          * intros [(m & H1 & H2)|(k' & m & H1 & H2 & H3)]; [exists k, m; auto|exists k', m; auto].
          * intros (k' & m & [<-|H1] & H2 & H3); [left; eauto|right; eauto]. }
    destruct (HF (kids n) (enter_table low n tc)) as (A1 & (n1 & A2 & A3) & (e1 & A4 & A5)); auto; [now apply enter_table_ctes|].
    split; [eapply leave_enter_ctes; eauto|]. split.
    - destruct (enter_table_tables n tc hidden H) as (n0 & E1 & E2). exists (n0 ++ n1). rewrite A2, E1, app_assoc. split; auto.
      intros t. rewrite in_app_iff, reads_iff, E2, A3. reflexivity.
    - exists (source_error n ++ e1). rewrite A4, enter_table_errors, app_assoc. split; auto.
      intros e. rewrite in_app_iff, A5. split.
      + intros [He|(k & m & H1 & H2 & H3)]; [exists n; split; [constructor|auto]|exists m; split; [econstructor; eauto|auto]].
      + intros (m & Hm & He). inversion Hm; subst; [auto|right; eauto].
  Qed.
  Lemma stack_nil : stack_of [] (fun _ => False).
  Proof. intros x. split; [intros (l & [] & _)|intros (c & [] & _)]. Qed.
  Lemma source_error_bad : forall n, source_error n <> [] <-> bad_source n.
  Proof.
    intros n. destruct n; simpl; try (split; congruence || tauto).
    destruct n; simpl; try (split; [tauto|discriminate]); try (split; congruence || tauto).
    destruct schema; simpl; [split; congruence || tauto|split; [tauto|discriminate]].
  Qed.
  Lemma set_fold : forall l acc, NoDup acc -> let r := fold_left (fun s t => if str_in t s then s else s ++ [t]) l acc in
      NoDup r /\ forall t, In t r <-> In t acc \/ In t l.
  Proof.
    induction l as [|x l IH]; intros acc HN; simpl; [split; auto; tauto|].
    destruct (str_in x acc) eqn:E.
    - apply str_in_iff in E. destruct (IH acc HN) as [H1 H2]. split; auto. intros t. rewrite H2. split; [tauto|]. intros [H|[<-|H]]; auto.
    - destruct (IH (acc ++ [x])) as [H1 H2].
      + apply Permutation_NoDup with (x :: acc); [apply Permutation_cons_append|]. constructor; auto. intros Hx. apply str_in_iff in Hx. congruence.
      + split; auto. intros t. rewrite H2, in_app_iff. simpl. tauto.
  Qed.
End P.

(** Deciding properties of all parts of a concrete expression. *)
Fixpoint check (p : node -> bool) (fuel : nat) (n : node) : bool :=
  match fuel with
  | 0 => false
  | S f => (p n && match n with Subquery _ => true | _ => forallb (check p f) (kids n) end)%bool
  end.
Lemma check_part : forall p n m, part n m -> forall fuel, check p fuel n = true -> p m = true.
Proof.
  intros p n m H. induction H as [n|n k m Hs Hk _ IH]; intros [|f] HC; simpl in HC; try discriminate; apply andb_true_iff in HC; [tauto|].
  apply (IH f). destruct HC as [_ HC].
  assert (HC' : forallb (check p f) (kids n) = true) by (destruct n; auto; exfalso; eapply Hs; reflexivity).
  rewrite forallb_forall in HC'. auto.
Qed.
Fixpoint check_all (p : node -> bool) (fuel : nat) (n : node) : bool :=
  match fuel with
  | 0 => false
  | S f => (p n && forallb (check_all p f) (kids n))%bool
  end.
Lemma check_inside : forall p n m, inside n m -> forall fuel, check_all p fuel n = true -> p m = true.
Proof.
  intros p n m H. induction H as [n|n k m Hk _ IH]; intros [|f] HC; simpl in HC; try discriminate; apply andb_true_iff in HC; [tauto|].
  apply (IH f). destruct HC as [_ HC]. rewrite forallb_forall in HC. auto.
Qed.
Definition lossyb (n : node) : bool :=
  match n with
  | E1 SetCollationExpr _ => true
  | UserVar Nil => false
  | UserVar _ => true
  | Aggregate _ (_ :: _) => true
  | _ => false
  end.
Lemma lossyb_lossy : forall n, lossyb n = false -> ~ lossy n.
Proof. intros n H. destruct n; simpl in *; auto; [destruct t|destruct n|destruct order]; simpl in *; auto; discriminate. Qed.
Definition is_match (n : node) : bool := match n with Match _ _ => true | _ => false end.
Lemma lossless_check : forall fuel e, check (fun n => negb (lossyb n)) fuel e = true -> lossless e.
Proof. intros fuel e H m Hm. apply lossyb_lossy, negb_true_iff. exact (check_part (fun n => negb (lossyb n)) _ _ Hm _ H). Qed.
Lemma no_match_check : forall fuel e, check (fun n => negb (is_match n)) fuel e = true -> no_match e.
Proof. intros fuel e H m Hm cols a ->. pose proof (check_part _ _ _ Hm _ H). discriminate. Qed.
