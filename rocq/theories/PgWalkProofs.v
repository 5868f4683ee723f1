(** The walker visits every visible node once; crashes and refusals. *)
From Coq Require Import String List NArith Bool Lia Arith Permutation.
From Verif Require Import Base Dec IndexText IndexBuild TableFields PgAst PgCollect PgSpec PgProofs PgTreeProofs PgRegionProofs PgWalkSpec TableFieldsProofs.
Import ListNotations.

(** ** Events *)
Section Run.
  Context {S : Type} (enter leave : node -> S -> outcome S).
  Notation run := (run enter leave).
  Lemma run_app : forall a b s, run (a ++ b) s = (do s <- run a s; run b s).
  Proof. induction a as [|[n|n] a IH]; intros b s; simpl; auto; rewrite obind_assoc; apply obind_ext; auto. Qed.
End Run.
Lemma known_unsupported : forall n, known n = false <-> unsupported_kind n.
Proof. intros n. destruct n; simpl; try (split; [discriminate|tauto]); try (split; auto; fail); destruct t; simpl; split; auto; try discriminate; tauto. Qed.
Lemma drop_nil_real : forall l, drop_nil l = real l.
Proof. induction l as [|x l IH]; auto. destruct x; simpl; rewrite ?IH; auto. Qed.
Lemma kids_visible : forall n, known n = true -> Permutation (real (kids n)) (real (visible n)).
Proof.
  intros n H. rewrite <- !drop_nil_real. destruct n; simpl kids; simpl visible; simpl in H; try discriminate; auto; try (destruct t; simpl in *; auto; discriminate).
  - simpl. rewrite drop_nil_app, drop_nil_opt. simpl. rewrite app_nil_r. auto.
  - simpl. rewrite drop_nil_opt, app_nil_r. auto.
  - simpl. rewrite !drop_nil_app, !drop_nil_opt. simpl. rewrite app_nil_r. auto.
  - simpl. rewrite !drop_nil_app, !drop_nil_opt. simpl. rewrite !app_nil_r. auto.
  - simpl. rewrite !drop_nil_app, !drop_nil_opt. simpl. rewrite !app_nil_r. apply Permutation_app_head, Permutation_app_head, Permutation_app_head.
    rewrite (app_assoc (drop_nil distinct_on)). apply Permutation_app_comm.
Qed.
Lemma kids_unknown : forall n, known n = false -> kids n = [].
Proof. intros n H. destruct n; simpl in *; try discriminate; auto; destruct t; simpl in *; auto; discriminate. Qed.
Lemma nested_app : forall a b, nested a -> nested b -> nested (a ++ b).
Proof. intros a b H. induction H as [|n x y Hx _ Hy IH]; intros Hb; simpl; auto. rewrite <- app_assoc. simpl. constructor; auto. Qed.
Lemma entered_app : forall a b, entered (a ++ b) = entered a ++ entered b. Proof. intros. apply flat_map_app. Qed.

(** Any collector sees the same events. *)
Lemma walk_events : forall n, exists t us, nested t /\
    (forall (S : Type) (enter leave : node -> S -> outcome S) s u, walk enter leave n s u = (do s <- run enter leave t s; Ok (s, u ++ us))) /\
    (n <> Nil -> forall m, (m <> Nil /\ In m (entered t)) <-> reached n m) /\
    (n <> Nil -> forall m, In m us <-> reached n m /\ unsupported_kind m) /\
    (n = Nil -> us = [] /\ real (entered t) = []) /\
    (forall l, nodes n l -> (forall m, In m l -> ~ blind_spot m /\ ~ unsupported_kind m) -> Permutation (real (entered t)) l).
Proof.
  apply (node_ind' (fun n => exists t us, nested t /\
    (forall (S : Type) (enter leave : node -> S -> outcome S) s u, walk enter leave n s u = (do s <- run enter leave t s; Ok (s, u ++ us))) /\
    (n <> Nil -> forall m, (m <> Nil /\ In m (entered t)) <-> reached n m) /\
    (n <> Nil -> forall m, In m us <-> reached n m /\ unsupported_kind m) /\
    (n = Nil -> us = [] /\ real (entered t) = []) /\
    (forall l, nodes n l -> (forall m, In m l -> ~ blind_spot m /\ ~ unsupported_kind m) -> Permutation (real (entered t)) l))).
  intros n IH. rewrite Forall_forall in IH.
  assert (HL : forall ks, (forall k, In k ks -> In k (children n)) -> exists t us, nested t /\
    (forall (S : Type) (enter leave : node -> S -> outcome S) s u, walk_all enter leave ks s u = (do s <- run enter leave t s; Ok (s, u ++ us))) /\
    (forall m, (m <> Nil /\ In m (entered t)) <-> exists k, In k ks /\ k <> Nil /\ reached k m) /\
    (forall m, In m us <-> exists k, In k ks /\ k <> Nil /\ reached k m /\ unsupported_kind m) /\
    (forall l, nodes_all ks l -> (forall m, In m l -> ~ blind_spot m /\ ~ unsupported_kind m) -> Permutation (real (entered t)) l)).
  { induction ks as [|k ks IHk]; intros Hin.
    - exists [], []. split; [constructor|]. split; [intros; simpl; now rewrite app_nil_r|].
      split; [intros m; split; [intros [_ []]|intros (k & [] & _)]|]. split; [intros m; split; [intros []|intros (k & [] & _)]|].
      intros l HN _. inversion HN; subst. constructor.
    - destruct (IH k (Hin k (or_introl eq_refl))) as (t1 & u1 & A1 & A2 & A3 & A4 & A5 & A6).
      destruct IHk as (t2 & u2 & B1 & B2 & B3 & B4 & B5); [intros; apply Hin; now right|].
      exists (t1 ++ t2), (u1 ++ u2). split; [now apply nested_app|]. split; [|split; [|split]].
      + intros S en le s u. simpl. rewrite A2, run_app, !obind_assoc. apply obind_ext; auto. intros s'. simpl. rewrite B2. now rewrite app_assoc.
      + intros m. rewrite entered_app, in_app_iff. destruct (is_nil k) eqn:EK.
        * destruct k; try discriminate. destruct (A5 eq_refl) as [_ HR].
          split.
          -- intros [Hm [H|H]].
             ++ exfalso. assert (HX : In m (real (entered t1))) by (apply filter_In; split; auto; destruct m; auto; congruence). rewrite HR in HX. destruct HX.
             ++ destruct (proj1 (B3 m) (conj Hm H)) as (k' & K1 & K2). exists k'. split; [now right|auto].
          -- intros (k' & [<-|K1] & K2 & K3); [congruence|]. destruct (proj2 (B3 m)) as [X1 X2]; eauto.
        * assert (HK : k <> Nil) by (intros ->; discriminate). specialize (A3 HK). split.
          -- intros [Hm [H|H]]; [exists k; split; [now left|split; auto; apply A3; auto]|].
             destruct (proj1 (B3 m) (conj Hm H)) as (k' & K1 & K2). exists k'. split; [now right|auto].
          -- intros (k' & [<-|K1] & K2 & K3); [apply A3 in K3; tauto|]. destruct (proj2 (B3 m)) as [X1 X2]; eauto.
      + intros m. rewrite in_app_iff. destruct (is_nil k) eqn:EK.
        * destruct k; try discriminate. destruct (A5 eq_refl) as [-> _]. split.
          -- intros [[]|H]. apply B4 in H. destruct H as (k' & K1 & K2). exists k'. split; [now right|auto].
          -- intros (k' & [<-|K1] & K2 & K3); [congruence|]. right. apply B4. eauto.
        * assert (HK : k <> Nil) by (intros ->; discriminate). specialize (A4 HK). split.
          -- intros [H|H]; [apply A4 in H; exists k; split; [now left|tauto]|].
             apply B4 in H. destruct H as (k' & K1 & K2). exists k'. split; [now right|auto].
          -- intros (k' & [<-|K1] & K2 & K3); [left; apply A4; auto|right; apply B4; eauto].
      + intros l HN HB. inversion HN; subst. unfold real. rewrite entered_app, filter_app. apply Permutation_app.
        * apply A6; auto. intros; apply HB, in_or_app; auto.
        * apply B5; auto. intros; apply HB, in_or_app; auto. }
  destruct (HL (kids n) (kids_children n)) as (t & us & A1 & A2 & A3 & A4 & A5).
  exists (Entered n :: t ++ [Left n]), ((if known n then [] else [n]) ++ us).
  assert (HR : forall m, (exists k, In k (kids n) /\ k <> Nil /\ reached k m) <-> exists k, ~ unsupported_kind n /\ In k (visible n) /\ k <> Nil /\ reached k m).
  { intros m. destruct (known n) eqn:EK.
    - assert (HU : ~ unsupported_kind n) by (intros HU; apply known_unsupported in HU; congruence).
      assert (HX : forall k, k <> Nil -> (In k (kids n) <-> In k (visible n))).
      { intros k Hk. pose proof (kids_visible n EK) as HP. split; intros Hi.
        - assert (HY : In k (real (visible n))) by (eapply Permutation_in; [exact HP|]; apply filter_In; split; auto; destruct k; auto; congruence).
          apply filter_In in HY. tauto.
        - assert (HY : In k (real (kids n))) by (eapply Permutation_in; [symmetry; exact HP|]; apply filter_In; split; auto; destruct k; auto; congruence).
          apply filter_In in HY. tauto. }
      split; intros (k & H1).
      + destruct H1 as (H1 & H2 & H3). exists k. split; auto. split; auto. now apply HX.
      + destruct H1 as (_ & H1 & H2 & H3). exists k. split; auto. now apply HX.
    - rewrite (kids_unknown n EK). apply known_unsupported in EK. split; intros (k & H1); [destruct H1 as [[] _]|tauto]. }
  split; [|split; [|split; [|split; [|split]]]].
  - apply nested_node; [auto|constructor].
  - intros S en le s u. rewrite walk_kids. simpl. rewrite obind_assoc. apply obind_ext; auto. intros s1. rewrite A2, run_app, !obind_assoc. apply obind_ext; auto.
    intros s2. simpl. rewrite !obind_assoc. apply obind_ext; auto. intros s3. simpl. unfold with_unknown. destruct (known n); simpl; auto. now rewrite <- app_assoc.
  - intros Hn m. simpl. rewrite entered_app, in_app_iff. simpl. split.
    + intros [Hm [<-|[H|[]]]]; [constructor|]. destruct (proj1 (HR m)) as (k & K1 & K2 & K3 & K4); [apply A3; auto|]. econstructor; eauto.
    + intros H. inversion H; subst; [auto|]. assert (HX : m <> Nil /\ In m (entered t)) by (apply A3, HR; eauto). tauto.
  - intros Hn m. rewrite in_app_iff, A4. split.
    + intros [H|(k & K1 & K2 & K3 & K4)].
      * destruct (known n) eqn:EK; [destruct H|]. destruct H as [<-|[]]. split; [constructor|]. now apply known_unsupported.
      * split; auto. destruct (proj1 (HR m)) as (k' & L1 & L2 & L3 & L4); [eauto|]. econstructor; eauto.
    + intros [H HU]. inversion H; subst.
      * left. apply known_unsupported in HU. rewrite HU. now left.
      * right. destruct (proj2 (HR m)) as (k' & L1 & L2 & L3); eauto 10.
  - intros ->. simpl in *. destruct us as [|x us]; [|exfalso; destruct (proj1 (A4 x) (or_introl eq_refl)) as (k & [] & _)].
    split; auto. destruct (real (entered (t ++ [Left Nil]))) as [|x l] eqn:E; auto. exfalso.
    assert (HX : In x (real (entered (t ++ [Left Nil])))) by (rewrite E; now left). apply filter_In in HX. destruct HX as [H1 H2].
    rewrite entered_app, in_app_iff in H1. simpl in H1. destruct H1 as [H1|[]]. destruct (proj1 (A3 x)) as (k & [] & _). split; auto. intros ->; discriminate.
  - intros l HN HB. inversion HN; subst.
    + simpl. unfold real. rewrite entered_app, filter_app. simpl. rewrite app_nil_r. apply A5; auto. constructor.
    + simpl. destruct (HB n (or_introl eq_refl)) as [HB1 HB2].
      assert (EK : known n = true) by (destruct (known n) eqn:EK; auto; apply known_unsupported in EK; tauto).
      assert (E : is_nil n = false) by (destruct n; auto; congruence). rewrite E. simpl. constructor.
      rewrite entered_app. simpl. rewrite app_nil_r.
      assert (HX : exists l', nodes_all (kids n) l' /\ Permutation l0 l').
      { assert (HD : Permutation (drop_nil (children n)) (drop_nil (kids n))).
        { rewrite !drop_nil_real. transitivity (real (visible n)); [|symmetry; now apply kids_visible].
          destruct n; simpl in *; auto.
          - destruct ds; [auto|elim HB1; discriminate].
          - destruct order; [auto|elim HB1; discriminate].
          - destruct order; [auto|elim HB1; discriminate].
          - destruct n2; auto; elim HB1; discriminate. }
        assert (HDr : forall ks a, nodes_all ks a <-> nodes_all (drop_nil ks) a).
        { induction ks as [|x ks IHk]; intros a; [tauto|]. simpl. destruct x; simpl;
            try (split; intros X; inversion X; subst; constructor; auto; now apply IHk). split; intros X.
          - inversion X; subst. match goal with Y : nodes Nil _ |- _ => inversion Y; subst; [|congruence] end. now apply IHk.
          - change a with ([] ++ a). constructor; [constructor|now apply IHk]. }
        assert (HPm : forall ks ks', Permutation ks ks' -> forall a, nodes_all ks a -> exists b, nodes_all ks' b /\ Permutation a b).
        { intros ks ks' HPp. induction HPp as [|x ks ks' _ IHp|x y ks|ks ks' ks'' _ IH1 _ IH2]; intros a Ha.
          - exists a. auto.
          - inversion Ha; subst. match goal with Y : nodes_all ks _ |- _ => destruct (IHp _ Y) as (b' & K1 & K2) end.
            eexists (_ ++ b'). split; [constructor; eauto|]. now apply Permutation_app_head.
          - inversion Ha; subst. match goal with Y : nodes_all (x :: ks) _ |- _ => inversion Y; subst end.
            eexists. split; [constructor; [|constructor]; eauto|]. rewrite !app_assoc. apply Permutation_app_tail, Permutation_app_comm.
          - destruct (IH1 _ Ha) as (b & K1 & K2). destruct (IH2 _ K1) as (d & K3 & K4). exists d. split; auto. now transitivity b. }
        match goal with Y : nodes_all (children n) _ |- _ => apply HDr in Y; destruct (HPm _ _ HD _ Y) as (b & K1 & K2) end.
        exists b. split; auto. now apply HDr. }
      destruct HX as (l' & K1 & K2). rewrite K2. apply A5; auto. intros m Hm. apply HB. right. eapply Permutation_in; [symmetry; exact K2|exact Hm].
Qed.

(** ** What collecting does in any case *)
(** The SELECT at this address is directly in a subquery *)
Definition sub_id (n : node) (i : nat) : Prop := exists sid w b o l, within n (Subquery sid (ParenSelect (Select i w b o l))).
Lemma part_within : forall e m, part e m -> within e m.
Proof.
  intros e m H. induction H as [e|e k m _ Hk _ IH]; [constructor|]. destruct (operands_below e k Hk) as (c & Hc & Hw).
  eapply within_child; eauto. eapply within_trans; eauto.
Qed.
Lemma sub_id_within : forall n k i, within n k -> sub_id k i -> sub_id n i.
Proof. intros n k i H (sid & w & b & o & l & Hs). exists sid, w, b, o, l. eapply within_trans; eauto. Qed.
Lemma crashes_within : forall n k, within n k -> crashes k -> crashes n.
Proof. intros n k H (m & Hm & Hc). exists m. split; auto. eapply within_trans; eauto. Qed.
Lemma within_kid : forall n k, In k (children n) -> within n k.
Proof. intros. eapply within_child; eauto. constructor. Qed.
Definition owned (es : estate) (i : nat) : Prop := exists x p, fget (es_found es) i = Some (x, Some p).

Section Pg.
  Context (norm : gostring -> gostring) (target : gostring).
  Notation has_offence := (has_offence target).
  Notation bad_from := (bad_from norm target).
  (** Result of a step that collects from [l]; [bad] has to leave an error. *)
  Definition cstep (l : list node) (bad : Prop) (es es' : estate) : Prop :=
    (es_last es <> None -> es_last es' <> None) /\ (bad -> es_last es' <> None) /\
    (forall i, owned es' i -> owned es i \/ exists x, In x l /\ sub_id x i).

  Lemma collect_owned : forall e top ty es c es', collect_expr norm target top ty e es = Ok (c, es') ->
      forall i, owned es' i -> owned es i \/ sub_id e i.
  Proof.
    apply (operand_ind (fun e => forall top ty es c es', collect_expr norm target top ty e es = Ok (c, es') ->
      forall i, owned es' i -> owned es i \/ sub_id e i)).
    intros e IH top ty es c es' H i Ho.
    destruct (offends_dec norm target e) as [HF|HF].
    { destruct (collect_offends norm target top ty e es HF) as [m E]. rewrite E in H. inversion H; subst. left. exact Ho. }
    destruct (leaf e) as [l|] eqn:HL.
    { rewrite (collect_leaf norm target top ty e l es HL HF) in H. inversion H; subst. clear H.
      destruct e; simpl in HL; try discriminate; try (inversion HL; subst; left; exact Ho).
      - destruct e; inversion HL; subst; left; exact Ho.
      - destruct e; inversion HL; subst; left; exact Ho.
      - destruct star; inversion HL; subst; left; exact Ho.
      - destruct e; try (elim HF; exact I). destruct e; try (elim HF; exact I). inversion HL; subst. simpl in Ho.
        destruct Ho as (x & p & Ho). simpl in Ho. destruct (Nat.eqb i id0) eqn:E; [|left; exists x, p; auto].
        apply Nat.eqb_eq in E. subst. right. exists id, e1, e2, e3, e4. constructor. }
    pose proof (collect_shape norm target e top ty es) as HS. rewrite H in HS. destruct HS as [HH _].
    rewrite (collect_inner norm target top ty e es HL HF (HH e (part_self e))) in H.
    assert (HA : forall l, (forall x, In x l -> In x (operands e)) -> forall es c es', collect_all norm target top ty l es = Ok (c, es') ->
      owned es' i -> owned es i \/ exists x, In x l /\ sub_id x i).
    { induction l as [|x l IHl]; intros Hl s0 c0 s1 E Ho'; simpl in E; [inversion E; subst; auto|].
      destruct (collect_expr norm target top ty x s0) as [[c1 e1]| |] eqn:E1; try discriminate. cbn [obind fst snd] in E.
      destruct (collect_all norm target top ty l e1) as [[c2 e2]| |] eqn:E2; try discriminate. inversion E; subst.
      destruct (IHl (fun k Hk => Hl k (or_intror Hk)) _ _ _ E2 Ho') as [K|(y & K1 & K2)]; [|right; exists y; split; auto; now right].
      destruct (IH x (Hl x (or_introl eq_refl)) _ _ _ _ _ E1 i K) as [K'|K']; auto. right. exists x. split; auto. now left. }
    destruct (HA _ (fun x Hx => Hx) _ _ _ H Ho) as [K|(x & K1 & K2)]; auto. right.
    eapply sub_id_within; [|exact K2]. destruct (operands_below e x K1) as (k & Hk & Hw). eapply within_child; eauto.
  Qed.
  Lemma collect_step : forall e top ty es, match collect_expr norm target top ty e es with
      | Ok (_, es') => cstep [e] (has_offence e) es es'
      | Err _ => False
      | Panic => crashes e end.
  Proof.
    intros e top ty es. pose proof (collect_shape norm target e top ty es) as HS.
    destruct (collect_expr norm target top ty e es) as [[c es']| |] eqn:E; simpl in HS; auto.
    - destruct HS as [_ HS]. split; [intros H H'; apply HS in H'; tauto|]. split.
      + intros (m & Hm & Ho) H'. apply HS in H'. destruct H' as [_ H']. eapply H'; eauto.
      + intros i Ho. destruct (collect_owned _ _ _ _ _ _ E i Ho); auto. right. exists e. split; auto. now left.
    - destruct HS as (m & Hm & Hh). exists m. split; [now apply part_within|now left].
  Qed.
  Lemma cstep_refl : forall l es, cstep l False es es. Proof. intros. split; auto. Qed.
  Lemma cstep_trans : forall l1 l2 b1 b2 (b : Prop) a c d, cstep l1 b1 a c -> cstep l2 b2 c d -> (b -> b1 \/ b2) -> cstep (l1 ++ l2) b a d.
  Proof.
    intros l1 l2 b1 b2 b a c d (A1 & A2 & A3) (B1 & B2 & B3) H. split; auto. split; [intros Hb; destruct (H Hb); auto|].
    intros i Hi. destruct (B3 i Hi) as [K|(x & K1 & K2)]; [destruct (A3 i K) as [K'|(x & K1 & K2)]; auto|]; right; exists x; rewrite in_app_iff; auto.
  Qed.
  Lemma cstep_incl : forall l l' (b b' : Prop) a c, cstep l b a c -> (forall x, In x l -> exists y, In y l' /\ within y x) -> (b' -> b) -> cstep l' b' a c.
  Proof.
    intros l l' b b' a c (A1 & A2 & A3) HI HB. split; auto. split; auto. intros i Hi. destruct (A3 i Hi) as [K|(x & K1 & K2)]; auto.
    destruct (HI x K1) as (y & Hy & Hw). right. exists y. split; auto. eapply sub_id_within; eauto.
  Qed.
  Lemma row_step : forall rows top es, match row_fields norm target top rows es with
      | Ok (_, es') => cstep rows (exists e, In e rows /\ has_offence e) es es'
      | Err _ => False
      | Panic => exists e, In e rows /\ crashes e end.
  Proof.
    induction rows as [|e rows IH]; intros top es; simpl.
    - eapply cstep_incl; [apply cstep_refl with (l := [])|intros x []|intros (e & [] & _)].
    - pose proof (collect_step e top FReference es) as H. destruct (collect_expr norm target top FReference e es) as [[c es1]| |]; cbn [obind fst snd]; auto.
      + specialize (IH top es1). destruct (row_fields norm target top rows es1) as [[fs es2]| |]; cbn [obind fst snd]; auto.
        * apply (cstep_trans [e] rows _ _ _ _ _ _ H IH). intros (x & [<-|Hx] & Hb); eauto.
        * destruct IH as (x & H1 & H2). exists x. split; [now right|auto].
      + exists e. split; [now left|auto].
  Qed.
  Lemma info_step : forall p sel es name es', new_select_info p None sel es = (name, es') ->
      cstep [sel] (forall id w b o l, sel <> ParenSelect (Select id w b o l)) es es'.
  Proof.
    intros p sel es name es' H.
    assert (HF : (forall id w b o l, sel <> ParenSelect (Select id w b o l)) -> (None, fail (err_subquery sel) es) = (name, es') -> cstep [sel] (forall id w b o l, sel <> ParenSelect (Select id w b o l)) es es').
    { intros HN E. inversion E; subst. split; [discriminate|]. split; [discriminate|]. intros i Hi. left. exact Hi. }
    destruct sel; simpl in H; try (apply HF; auto; discriminate). destruct sel; try (apply HF; auto; discriminate).
    inversion H; subst. split; [auto|]. split; [intros HN; elim (HN id sel1 sel2 sel3 sel4); reflexivity|].
    intros i (x & q & Hi). simpl in Hi. destruct (Nat.eqb i id); [discriminate|]. left. exists x, q. auto.
  Qed.
  Lemma tables_step : forall n top es, match collect_tables norm target top n es with
      | Ok (_, _, es') => cstep [n] (bad_from n) es es'
      | Err _ => False
      | Panic => crashes n end.
  Proof.
    apply (node_sind (fun n => forall top es, match collect_tables norm target top n es with
      | Ok (_, _, es') => cstep [n] (bad_from n) es es'
      | Err _ => False
      | Panic => crashes n end)).
    intros n IH.
    assert (HFail : forall m es, cstep [n] (bad_from n) es (fail m es)).
    { intros m es. split; [discriminate|]. split; [discriminate|]. intros i Hi. left. exact Hi. }
    assert (HSame : forall es, ~ bad_from n -> cstep [n] (bad_from n) es es).
    { intros es Hn. split; [auto|]. split; [intros Hb; elim (Hn Hb)|auto]. }
    assert (HJ : forall l r c, (n = Join l r c \/ exists a la, n = Aliased (Join l r c) a la) -> forall top es,
      match (do r1 <- collect_tables norm target top l es;
      do r2 <- collect_tables norm target top r (snd r1);
      let ts := fst (fst r1) ++ fst (fst r2) in
      let fs := snd (fst r1) ++ snd (fst r2) in
      match c with
      | Nil => Ok (ts, fs, snd r2)
      | Natural => Ok (ts, fs, fail err_natural (snd r2))
      | On x => do r3 <- collect_expr norm target top FCondition x (snd r2);
                Ok (ts, fs ++ [mk_field [] (fst r3)], snd r3)
      | UsingCols cols =>
          Ok (ts, fs ++ map (fun c => mk_field [] [mk_fcol [] (norm c) FCondition]) cols, snd r2)
      | _ => Ok (ts, fs, fail err_join (snd r2))
      end) with
      | Ok (_, _, es') => cstep [n] (bad_from n) es es'
      | Err _ => False
      | Panic => crashes n end).
    { intros l r c Hn top es.
      assert (HW : forall k, k = l \/ k = r \/ within c k -> within n k).
      { intros k Hk. assert (HX : within (Join l r c) k) by (destruct Hk as [->|[->|Hk]]; [apply within_kid; simpl; auto|apply within_kid; simpl; auto|eapply within_child; [|exact Hk]; simpl; auto]).
        destruct Hn as [->|(a & la & ->)]; auto. eapply within_child; [now left|exact HX]. }
      assert (HI : forall k, In k [l; r] -> forall top es, match collect_tables norm target top k es with
        | Ok (_, _, es') => cstep [k] (bad_from k) es es' | Err _ => False | Panic => crashes k end).
      { intros k Hk. destruct Hn as [->|(a & la & ->)].
        - apply (IH k k); [simpl in *; tauto|constructor].
        - apply (IH (Join l r c) k); [now left|]. apply within_kid. simpl in *; tauto. }
      assert (HB : bad_from n -> bad_from (Join l r c)) by (destruct Hn as [->|(a & la & ->)]; auto; intros X; inversion X; auto).
      pose proof (HI l (or_introl eq_refl) top es) as H1. destruct (collect_tables norm target top l es) as [[[t1 f1] s1]| |]; cbn [obind fst snd]; auto;
        [|eapply crashes_within; [|exact H1]; auto].
      pose proof (HI r (or_intror (or_introl eq_refl)) top s1) as H2. destruct (collect_tables norm target top r s1) as [[[t2 f2] s2]| |]; cbn [obind fst snd]; auto;
        [|eapply crashes_within; [|exact H2]; auto].
      assert (H3 : cstep [n] (bad_from l \/ bad_from r) es s2).
      { eapply cstep_incl; [exact (cstep_trans _ _ _ _ _ _ _ _ H1 H2 (fun x => x))| |auto]. intros x Hx. exists n. split; [now left|]. simpl in Hx. apply HW. intuition auto. }
      assert (HNo : (forall e, c <> On e) -> bad_from n -> bad_from l \/ bad_from r).
      { intros Hc Hb. apply HB in Hb. inversion Hb; subst; auto. elim (Hc e). reflexivity. }
      assert (HFl : forall m, (forall e, c <> On e) -> cstep [n] (bad_from n) es (fail m s2)).
      { intros m Hc. destruct H3 as (A1 & A2 & A3). split; [discriminate|]. split; [discriminate|]. exact A3. }
      destruct c; cbv zeta; try (apply HFl; discriminate); try (eapply cstep_incl; [exact H3|intros x [<-|[]]; exists n; split; [now left|constructor]|apply HNo; discriminate]).
      pose proof (collect_step c top FCondition s2) as H4. destruct (collect_expr norm target top FCondition c s2) as [[c4 s4]| |]; cbn [obind fst snd]; auto.
      - eapply cstep_incl with (b := (bad_from l \/ bad_from r) \/ has_offence c).
        + exact (cstep_trans _ _ _ _ _ _ _ _ H3 H4 (fun x => x)).
        + intros x [<-|[<-|[]]]; exists n; (split; [now left|]); [constructor|]. apply HW. right. right. apply within_kid. now left.
        + intros Hb. apply HB in Hb. inversion Hb; subst; auto.
      - eapply crashes_within; [|exact H4]. apply HW. right. right. apply within_kid. now left. }
    intros top es. destruct n; try (simpl; apply HFail).
    - simpl. apply HSame. intros X. inversion X.
    - simpl. apply HSame. intros X. inversion X.
    - cbn [collect_tables]. destruct n; try (apply HFail); try (apply HSame; intros X; inversion X; fail).
      + destruct (new_select_info (lit "select") None n es) as [nm es'] eqn:E. apply info_step in E. 
        eapply cstep_incl; [exact E| |].
        * intros x [<-|[]]. eexists. split; [now left|]. eapply within_child; [now left|]. apply within_kid. now left.
        * intros X. inversion X; subst. auto.
      + exists (ParenTable n). split; [apply within_kid; now left|right; eauto].
      + apply HJ. right. eauto.
      + pose proof (row_step items top es) as H. destruct (row_fields norm target top items es) as [[fs es']| |]; cbn [obind fst snd]; auto.
        * eapply cstep_incl; [exact H| |].
          -- intros x Hx. eexists. split; [now left|]. eapply within_child; [now left|]. apply within_kid. exact Hx.
          -- intros X. inversion X; subst. match goal with Y : PgWalkSpec.bad_from _ _ (RowsFrom _) |- _ => inversion Y; subst end. eauto.
        * destruct H as (e & He & Hc). eapply crashes_within; [|exact Hc]. eapply within_child; [now left|]. apply within_kid. exact He.
      + destruct (schema_specified_name norm target catalog schema) eqn:E; [apply HFail|]. apply HSame. intros X. inversion X; subst.
        unfold schema_specified_name in E. destruct catalog; [|discriminate]. destruct H0 as [H0|[H0 H1]]; [congruence|].
        destruct (norm schema) eqn:En; [congruence|]. rewrite <- En in *. clear En. destruct (seqb (norm schema) target) eqn:Es; [|discriminate].
        apply seqb_eq in Es. congruence.
      + destruct (schema_specified target parts 1); [apply HFail|]. apply HSame. intros X. inversion X.
    - simpl. exists (ParenTable n). split; [constructor|right; eauto].
    - apply (HJ n1 n2 n3). auto.
    - cbn [collect_tables]. pose proof (row_step items top es) as H. destruct (row_fields norm target top items es) as [[fs es']| |]; cbn [obind fst snd]; auto.
      + eapply cstep_incl; [exact H| |].
        * intros x Hx. eexists. split; [now left|]. apply within_kid. exact Hx.
        * intros X. inversion X; subst. eauto.
      + destruct H as (e & He & Hc). eapply crashes_within; [|exact Hc]. apply within_kid. exact He.
  Qed.
End Pg.

(** ** Collecting one SELECT in any case *)
Section Select.
  Context (norm : gostring -> gostring) (target : gostring).
  Notation has_offence := (has_offence target).
  Notation bad_from := (bad_from norm target).
  Notation unsupported_select := (unsupported_select norm target).
  Definition pending (errs : list gostring) (es : estate) : Prop := errs <> [] \/ es_last es <> None.
  Definition astep (l : list node) (bad : Prop) (errs : list gostring) (es : estate) (errs' : list gostring) (es' : estate) : Prop :=
    (errs <> [] -> errs' <> []) /\ (bad -> errs' <> []) /\ (pending errs es -> pending errs' es') /\
    (forall i, owned es' i -> owned es i \/ exists x, In x l /\ sub_id x i).
  Lemma astep_trans : forall l1 l2 (b1 b2 b : Prop) e1 s1 e2 s2 e3 s3, astep l1 b1 e1 s1 e2 s2 -> astep l2 b2 e2 s2 e3 s3 ->
      (b -> b1 \/ b2) -> astep (l1 ++ l2) b e1 s1 e3 s3.
  Proof.
    intros l1 l2 b1 b2 b e1 s1 e2 s2 e3 s3 (A1 & A2 & A3 & A4) (B1 & B2 & B3 & B4) H. split; auto. split; [intros Hb; destruct (H Hb); auto|]. split; auto.
    intros i Hi. destruct (B4 i Hi) as [K|(x & K1 & K2)]; [destruct (A4 i K) as [K'|(x & K1 & K2)]; auto|]; right; exists x; rewrite in_app_iff; auto.
  Qed.
  Lemma astep_refl : forall errs es, astep [] False errs es errs es.
  Proof. intros. split; auto. Qed.
  Lemma astep_weak : forall l (b b' : Prop) e s e' s', astep l b e s e' s' -> (b' -> b) -> astep l b' e s e' s'.
  Proof. intros l b b' e s e' s' (A1 & A2 & A3 & A4) H. split; auto. Qed.
  Lemma owned_no_error : forall es i, owned (no_error es) i -> owned es i. Proof. intros es i H. exact H. Qed.
  Lemma app_not_nil : forall (A : Type) (l : list A) x, l ++ [x] <> []. Proof. intros A [|y l] x; discriminate. Qed.
  Lemma expr_field_step : forall top ty as_ e errs es, match expr_field norm target top ty as_ e errs es with
      | Ok (_, errs', es') => astep [e] (has_offence e \/ pending errs es) errs es errs' es'
      | Err _ => False
      | Panic => crashes e end.
  Proof.
    intros. unfold expr_field. pose proof (collect_step norm target e top ty es) as H. destruct (collect_expr norm target top ty e es) as [[c es']| |]; cbn [obind fst snd]; auto.
    destruct H as (A1 & A2 & A3). destruct (es_last es') as [m|] eqn:E.
    - assert (X := app_not_nil _ errs m). split; auto. split; auto. split; [left; auto|]. exact A3.
    - split; auto. split; [|split; auto].
      + intros [H|[H|H]]; auto; exfalso; [apply A2 in H|apply A1 in H]; congruence.
      + intros [H|H]; [now left|]. apply A1 in H. congruence.
  Qed.
  Lemma expr_fields_step : forall top get l errs es, match expr_fields norm target top get l errs es with
      | Ok (_, errs', es') => astep (map (fun x => snd (get x)) l) ((exists x, In x l /\ has_offence (snd (get x))) \/ (l <> [] /\ pending errs es)) errs es errs' es'
      | Err _ => False
      | Panic => exists x, In x l /\ crashes (snd (get x)) end.
  Proof.
    intros top get. induction l as [|x l IH]; intros errs es; cbn [expr_fields].
    - eapply astep_weak; [apply astep_refl|]. intros [(x & [] & _)|[H _]]. congruence.
    - pose proof (expr_field_step top FReference (fst (get x)) (snd (get x)) errs es) as H.
      destruct (expr_field norm target top FReference (fst (get x)) (snd (get x)) errs es) as [[[f e1] s1]| |]; cbn [obind fst snd]; auto.
      + specialize (IH e1 s1). destruct (expr_fields norm target top get l e1 s1) as [[[fs e2] s2]| |]; cbn [obind]; auto.
        * apply (astep_trans [snd (get x)] _ _ _ _ _ _ _ _ _ _ H IH). intros [(y & [<-|Hy] & Hb)|[_ Hp]]; auto. right. left. eauto.
        * destruct IH as (y & H1 & H2). exists y. split; [now right|auto].
      + exists x. split; [now left|auto].
  Qed.
  Lemma from_items_step : forall top l ts errs es, match PgCollect.from_items norm target top l ts errs es with
      | Ok (_, errs', es') => astep l (exists f, In f l /\ bad_from f) errs es errs' es'
      | Err _ => False
      | Panic => exists x, In x l /\ crashes x end.
  Proof.
    intros top. induction l as [|x l IH]; intros ts errs es; cbn [PgCollect.from_items].
    - eapply astep_weak; [apply astep_refl|]. intros (x & [] & _).
    - pose proof (tables_step norm target x top es) as H. destruct (collect_tables norm target top x es) as [[[t1 f1] s1]| |]; cbn [obind]; auto.
      + cbv zeta. set (e1 := match es_last s1 with Some m => errs ++ [m] | None => errs end).
        assert (HS : astep [x] (bad_from x) errs es e1 (no_error s1)).
        { destruct H as (A1 & A2 & A3). subst e1. destruct (es_last s1) as [m|] eqn:E.
          - assert (X := app_not_nil _ errs m). split; auto. split; auto. split; [left; auto|exact A3].
          - split; auto. split; [intros Hb; apply A2 in Hb; congruence|]. split; [|exact A3]. intros [Hp|Hp]; [now left|]. apply A1 in Hp. congruence. }
        specialize (IH t1 e1 (no_error s1)). destruct (PgCollect.from_items norm target top l t1 e1 (no_error s1)) as [[[[t2 f2] e2] s2]| |]; cbn [obind]; auto.
        * apply (astep_trans [x] l _ _ _ _ _ _ _ _ _ HS IH). intros (y & [<-|Hy] & Hb); eauto.
        * destruct IH as (y & H1 & H2). exists y. split; [now right|auto].
      + exists x. split; [now left|auto].
  Qed.
  Lemma opt_field_step : forall top ty w errs es, match opt_field norm target top ty w errs es with
      | Ok (_, errs', es') => astep (match w with Where e => [e] | _ => [] end) (exists e, w = Where e /\ has_offence e) errs es errs' es'
      | Err _ => False
      | Panic => crashes w end.
  Proof.
    intros top ty w errs es. destruct w; cbn [opt_field]; try (eapply astep_weak; [apply astep_refl|]; intros (e & E & _); discriminate).
    pose proof (expr_field_step top ty [] w errs es) as H. destruct (expr_field norm target top ty [] w errs es) as [[[f e1] s1]| |]; auto.
    - eapply astep_weak; [exact H|]. intros (e & E & Hb). inversion E; subst. auto.
    - eapply crashes_within; [|exact H]. apply within_kid. now left.
  Qed.
  (** The positions of what is collected *)
  Lemma get_select_within : forall x, within x (snd (get_select_expr x)).
  Proof. intros []; simpl; try constructor. apply within_kid. now left. Qed.
  Lemma get_order_within : forall x, within x (snd (get_order x)) \/ snd (get_order x) = Nil.
  Proof. intros []; simpl; auto. left. apply within_kid. now left. Qed.
  Lemma nil_part : forall m, part Nil m -> m = Nil.
  Proof. intros m H. inversion H; subst; auto. match goal with K : In _ (operands Nil) |- _ => destruct K end. Qed.
  Lemma nil_within : forall m, within Nil m -> m = Nil.
  Proof. intros m H. inversion H; subst; auto. match goal with K : In _ (children Nil) |- _ => destruct K end. Qed.
  Lemma list_within : forall n x, In x (list_of n) -> within n x.
  Proof. intros n x H. apply within_kid. destruct n; simpl in *; auto; tauto. Qed.
  Lemma not_crash_nil : ~ crashes Nil. Proof. intros (m & Hm & Hc). apply nil_within in Hm. subst. destruct Hc as [Hc|(t & Hc)]; [destruct Hc|discriminate]. Qed.
  Lemma not_sub_nil : forall i, ~ sub_id Nil i. Proof. intros i (a & b & c & d & e & H). apply nil_within in H. discriminate. Qed.
  Lemma has_offence_nil : ~ has_offence Nil. Proof. intros (m & Hm & Hc). apply nil_part in Hm. subst. destruct Hc. Qed.

  Lemma astep_incl : forall l l' (b b' : Prop) e s e' s', astep l b e s e' s' -> (forall x, In x l -> x = Nil \/ exists y, In y l' /\ within y x) -> (b' -> b) -> astep l' b' e s e' s'.
  Proof.
    intros l l' b b' e s e' s' (A1 & A2 & A3 & A4) HI HB. split; auto. split; auto. split; auto. intros i Hi. destruct (A4 i Hi) as [K|(x & K1 & K2)]; auto.
    destruct (HI x K1) as [->|(y & Hy & Hw)]; [elim (not_sub_nil _ K2)|]. right. exists y. split; auto. eapply sub_id_within; eauto.
  Qed.
  Lemma collect_select_step : forall id w xs fr wh hv d g win o l top errs es,
      let n := Select id w (SelectClause xs fr wh hv d g win) o l in
      match collect_select norm target top w (SelectClause xs fr wh hv d g win) o l errs es with
      | Ok (_, errs', es') => astep (children n) (unsupported_select n \/ (asks n /\ pending errs es)) errs es errs' es' /\ (w <> Nil -> pending errs' es')
      | Err _ => False
      | Panic => crashes n end.
  Proof.
    intros id w xs fr wh hv d g win o l top errs es n.
    assert (Wcl : forall k m, In k [xs; wh; hv; fr] \/ In k g -> within k m -> exists y, In y (children n) /\ within y m).
    { intros k m Hk Hm. exists (SelectClause xs fr wh hv d g win). split; [simpl; tauto|]. eapply within_child; [|exact Hm]. simpl. rewrite in_app_iff. simpl in Hk. tauto. }
    assert (Wn : forall k m, In k [o; l] -> within k m -> exists y, In y (children n) /\ within y m).
    { intros k m Hk Hm. exists k. split; auto. simpl in *. tauto. }
    assert (WC : forall m, (exists y, In y (children n) /\ within y m) -> crashes m -> crashes n).
    { intros m (y & Hy & Hw). apply crashes_within. eapply within_child; eauto. }
    unfold collect_select.
    pose proof (expr_fields_step top get_select_expr (list_of xs) errs es) as H1.
    destruct (expr_fields norm target top get_select_expr (list_of xs) errs es) as [[[f1 e1] s1]| |]; cbn [obind]; auto.
    2: { destruct H1 as (x & K1 & K2). eapply WC; [|exact K2]. apply (Wcl xs); [simpl; tauto|]. eapply within_trans; [apply list_within; exact K1|apply get_select_within]. }
    pose proof (from_items_step top (list_of fr) [] e1 s1) as H2.
    destruct (PgCollect.from_items norm target top (list_of fr) [] e1 s1) as [[[[t2 f2] e2] s2]| |]; cbn [obind]; auto.
    2: { destruct H2 as (x & K1 & K2). eapply WC; [|exact K2]. apply (Wcl fr); [simpl; tauto|]. now apply list_within. }
    pose proof (opt_field_step top FCondition wh e2 s2) as H3.
    destruct (opt_field norm target top FCondition wh e2 s2) as [[[f3 e3] s3]| |]; cbn [obind]; auto.
    2: { eapply WC; [|exact H3]. apply (Wcl wh); [simpl; tauto|constructor]. }
    pose proof (expr_fields_step top get_expr g e3 s3) as H4.
    destruct (expr_fields norm target top get_expr g e3 s3) as [[[f4 e4] s4]| |]; cbn [obind]; auto.
    2: { destruct H4 as (x & K1 & K2). eapply WC; [|exact K2]. apply (Wcl x); [auto|constructor]. }
    pose proof (opt_field_step top FReference hv e4 s4) as H5.
    destruct (opt_field norm target top FReference hv e4 s4) as [[[f5 e5] s5]| |]; cbn [obind]; auto.
    2: { eapply WC; [|exact H5]. apply (Wcl hv); [simpl; tauto|constructor]. }
    cbv zeta. set (e5' := if win then e5 ++ [err_window] else e5).
    assert (H5' : astep [] (win = true) e5 s5 e5' s5).
    { subst e5'. destruct win; [|eapply astep_weak; [apply astep_refl|discriminate]]. assert (X := app_not_nil _ e5 err_window). split; auto. split; auto. split; auto. intros _. now left. }
    pose proof (expr_fields_step top get_order (list_of o) e5' s5) as H6.
    destruct (expr_fields norm target top get_order (list_of o) e5' s5) as [[[f6 e6] s6]| |]; cbn [obind]; auto.
    2: { destruct H6 as (x & K1 & K2). destruct (get_order_within x) as [K|K]; [|rewrite K in K2; elim (not_crash_nil K2)].
         eapply WC; [|exact K2]. apply (Wn o); [simpl; tauto|]. eapply within_trans; [apply list_within; exact K1|auto]. }
    set (lim := match l with Limit cnt off => _ | _ => _ end).
    assert (H7 : match lim with
      | Ok (_, e7, s7) => astep (match l with Limit a b => [a; b] | _ => [] end) (exists e, In e (match l with Limit a b => [a; b] | _ => [] end) /\ has_offence e) e6 s6 e7 s7
      | Err _ => False | Panic => crashes l end).
    { subst lim. destruct l; try (eapply astep_weak; [apply astep_refl|]; intros (e & [] & _)).
      pose proof (expr_field_step top FReference [] l1 e6 s6) as G1. destruct (expr_field norm target top FReference [] l1 e6 s6) as [[[fa ea] sa]| |]; cbn [obind]; auto.
      2: { eapply crashes_within; [|exact G1]. apply within_kid. simpl; auto. }
      pose proof (expr_field_step top FReference [] l2 ea sa) as G2. destruct (expr_field norm target top FReference [] l2 ea sa) as [[[fb eb] sb]| |]; cbn [obind]; auto.
      2: { eapply crashes_within; [|exact G2]. apply within_kid. simpl; auto. }
      apply (astep_trans [l1] [l2] _ _ _ _ _ _ _ _ _ G1 G2). intros (e & [<-|[<-|[]]] & Hb); auto. }
    clearbody lim. destruct lim as [[[f7 e7] s7]| |]; cbn [obind]; auto.
    2: { eapply WC; [|exact H7]. apply (Wn l); [simpl; tauto|constructor]. }
    assert (HA := astep_trans _ _ _ _ _ _ _ _ _ _ _ H1 H2 (fun x => x)). clear H1 H2.
    assert (HB := astep_trans _ _ _ _ _ _ _ _ _ _ _ HA H3 (fun x => x)). clear HA H3.
    assert (HA := astep_trans _ _ _ _ _ _ _ _ _ _ _ HB H4 (fun x => x)). clear HB H4.
    assert (HB := astep_trans _ _ _ _ _ _ _ _ _ _ _ HA H5 (fun x => x)). clear HA H5.
    assert (HA := astep_trans _ _ _ _ _ _ _ _ _ _ _ HB H5' (fun x => x)). clear HB H5'.
    assert (HB := astep_trans _ _ _ _ _ _ _ _ _ _ _ HA H6 (fun x => x)). clear HA H6.
    assert (HA := astep_trans _ _ _ _ _ _ _ _ _ _ _ HB H7 (fun x => x)). clear HB H7.
    assert (HS : astep (children n) (unsupported_select n \/ (asks n /\ pending errs es)) errs es e7 s7).
    { eapply astep_incl; [exact HA| |]; clear HA.
      - intros x Hx. rewrite !in_app_iff in Hx.
        destruct Hx as [[[[[[[Hx|Hx]|Hx]|Hx]|Hx]|[]]|Hx]|Hx].
        + right. apply in_map_iff in Hx. destruct Hx as (y & <- & Hy). apply (Wcl xs); [simpl; tauto|]. eapply within_trans; [apply list_within; exact Hy|apply get_select_within].
        + right. apply (Wcl fr); [simpl; tauto|]. now apply list_within.
        + right. apply (Wcl wh); [simpl; tauto|]. apply within_kid. destruct wh; simpl in *; tauto.
        + right. apply in_map_iff in Hx. destruct Hx as (y & <- & Hy). apply (Wcl y); [auto|constructor].
        + right. apply (Wcl hv); [simpl; tauto|]. apply within_kid. destruct hv; simpl in *; tauto.
        + apply in_map_iff in Hx. destruct Hx as (y & <- & Hy). destruct (get_order_within y) as [K|K]; auto. right.
          apply (Wn o); [simpl; tauto|]. eapply within_trans; [apply list_within; exact Hy|auto].
        + right. apply (Wn l); [simpl; tauto|]. apply within_kid. destruct l; simpl in *; tauto.
      - intros [HU|[HU HP]].
        + simpl in HU. destruct fr; try (destruct HU; fail). destruct HU as [HU|[HU|(e & He & HU)]]; [tauto|tauto|].
          unfold select_exprs in He. rewrite !in_app_iff in He. destruct He as [He|[He|[He|[He|[He|He]]]]].
          * assert (HE : exists x, In x (list_of xs) /\ has_offence (snd (get_select_expr x))); [|tauto].
            destruct xs; try (destruct He; fail). apply in_flat_map in He. destruct He as (x & Hx & He). exists x. split; auto. destruct x; try (destruct He; fail). destruct He as [<-|[]]. exact HU.
          * assert (HE : exists e, wh = Where e /\ has_offence e); [|tauto]. destruct wh; try (destruct He; fail). destruct He as [<-|[]]. eauto.
          * assert (HE : exists e, hv = Where e /\ has_offence e); [|tauto]. destruct hv; try (destruct He; fail). destruct He as [<-|[]]. eauto.
          * assert (HE : exists x, In x g /\ has_offence (snd (get_expr x))); [|tauto]. exists e. auto.
          * assert (HE : exists x, In x (list_of o) /\ has_offence (snd (get_order x))); [|tauto].
            destruct o; try (destruct He; fail). unfold order_exprs in He. apply in_flat_map in He. destruct He as (x & Hx & He). exists x. split; auto. destruct x; try (destruct He; fail). destruct He as [<-|[]]. exact HU.
          * assert (HE : exists e, In e (match l with Limit a b => [a; b] | _ => [] end) /\ has_offence e); [eauto|tauto].
        + assert (HE : list_of xs <> []); [|tauto]. simpl in HU. destruct xs; try (destruct HU; fail). match goal with |- list_of (SelectExprs ?q) <> [] => destruct q end; [destruct HU|discriminate]. }
    assert (HW : forall w, astep (children n) (unsupported_select n \/ (asks n /\ pending errs es)) errs es e7 (match w with Nil => s7 | _ => fail err_with s7 end) /\ (w <> Nil -> pending e7 (match w with Nil => s7 | _ => fail err_with s7 end))).
    { intros w0. destruct w0; try (split; [exact HS|congruence]); (split; [|intros _; right; discriminate]); destruct HS as (A1 & A2 & A3 & A4); split; auto; split; auto; split; auto; intros _; right; discriminate. }
    apply HW.
  Qed.
End Select.

(** ** Walking with the scope collector in any case *)
Lemma address_in : forall n m, within n m -> forall A, addresses n A -> forall x, In x (own_address m) -> In x A.
Proof.
  intros n m H. induction H as [n|n k m Hk _ IH]; intros A HA x Hx; inversion HA; subst; rewrite in_app_iff; auto. right.
  clear - Hk H IH Hx. revert l H. induction (children n) as [|y ys IHy]; intros l H; [destruct Hk|]. inversion H; subst. rewrite in_app_iff.
  destruct Hk as [->|Hk]; [left; eapply IH; eauto|right; eauto].
Qed.
Lemma sub_address : forall n i A, sub_id n i -> addresses n A -> In (ASelect i) A.
Proof.
  intros n i A (sid & w & b & o & l & H) HA. apply (address_in n (Select i w b o l)) with (A := A); [|exact HA|now left].
  eapply within_trans; [exact H|]. eapply within_child; [now left|]. apply within_kid. now left.
Qed.
Lemma sub_address_all : forall ks k i A, In k ks -> sub_id k i -> addresses_all ks A -> In (ASelect i) A.
Proof.
  induction ks as [|y ys IH]; intros k i A Hk Hs HA; [destruct Hk|]. inversion HA; subst. rewrite in_app_iff.
  destruct Hk as [->|Hk]; [left; eapply sub_address; eauto|right; eauto].
Qed.
Lemma kids_sub : forall n a, addresses_all (children n) a -> NoDup a ->
    exists b, addresses_all (kids n) b /\ NoDup b /\ incl b a /\
    forall i, In (ASelect i) b -> (exists k, In k (children n) /\ sub_id k i) -> exists k, In k (kids n) /\ sub_id k i.
Proof.
  intros n a HA HN. destruct (kids_of_children n) as [d HP]. apply addresses_drop in HA.
  destruct (addresses_perm _ _ HP _ HA) as (b' & HB & HPb). apply addresses_all_app in HB. destruct HB as (b & r & -> & HB & HR).
  exists b. split; [now apply addresses_drop|]. assert (HN' : NoDup (b ++ r)) by (eapply Permutation_NoDup; eauto).
  split; [eapply NoDup_app_l; eauto|]. split; [intros x Hx; eapply Permutation_in; [symmetry; exact HPb|]; apply in_or_app; auto|].
  intros i Hi (k & Hk & Hs). assert (HK : In k (drop_nil (children n))).
  { rewrite drop_nil_real. apply filter_In. split; auto. destruct k; auto. elim (not_sub_nil _ Hs). }
  apply (Permutation_in _ HP) in HK. apply in_app_or in HK. destruct HK as [HK|HK].
  - exists k. split; auto. rewrite drop_nil_real in HK. apply filter_In in HK. tauto.
  - exfalso. eapply NoDup_app_disj; [exact HN'|exact Hi|]. eapply sub_address_all; eauto.
Qed.
Lemma visible_kids : forall n k, ~ unsupported_kind n -> In k (visible n) -> k <> Nil -> In k (kids n).
Proof.
  intros n k HU Hk Hn. assert (EK : known n = true) by (destruct (known n) eqn:E; auto; apply known_unsupported in E; tauto).
  assert (HY : In k (real (kids n))) by (eapply Permutation_in; [symmetry; apply kids_visible; auto|]; apply filter_In; split; auto; destruct k; auto; congruence).
  apply filter_In in HY. tauto.
Qed.

Section Walk.
  Context (norm : gostring -> gostring) (target : gostring).
  Notation unsupported_select := (unsupported_select norm target).
  Notation cpending c := (pending (c_errors c) (c_es c)).
  Definition selected (n : node) (q : node) : Prop := n = q \/ exists sid, n = Subquery sid (ParenSelect q).
  Definition with_part (n : node) : node := match n with Select _ w _ _ _ => w | _ => Nil end.
  Lemma enter_step : forall n c, match enter_scope norm target n c with
      | Ok c' =>
          (exists q x i, is_query q /\ selected n q /\ In x (own_address n) /\ c_stack c' = (to_addr x, i) :: c_stack c /\
             astep (children q) (unsupported_select q \/ (asks q /\ cpending c)) (c_errors c) (c_es c) (c_errors c') (c_es c') /\
             (with_part q <> Nil -> cpending c')) \/
          (c_stack c' = c_stack c /\ c_errors c' = c_errors c /\ c_es c' = c_es c /\
             (forall id w b o l, n = Select id w b o l -> is_query n -> owned (c_es c) id) /\
             (forall sid id w b o l, n = Subquery sid (ParenSelect (Select id w b o l)) -> is_query (Select id w b o l) -> ~ owned (c_es c) id))
      | Err _ => False
      | Panic => crashes n end.
  Proof.
    intros n c.
    assert (HNone : new_scope n c = None -> (forall id w b o l, n <> Select id w b o l) -> (forall sid id w b o l, n = Subquery sid (ParenSelect (Select id w b o l)) -> ~ owned (c_es c) id) -> enter_scope norm target n c = Ok c /\ (c_stack c = c_stack c /\ c_errors c = c_errors c /\ c_es c = c_es c /\
             (forall id w b o l, n = Select id w b o l -> is_query n -> owned (c_es c) id) /\
             (forall sid id w b o l, n = Subquery sid (ParenSelect (Select id w b o l)) -> is_query (Select id w b o l) -> ~ owned (c_es c) id))).
    { intros E H1 H2. split; [unfold enter_scope; now rewrite E|]. do 3 (split; [auto|]). split; [intros; elim (H1 id w b o l); auto|intros; eapply H2; eauto]. }
    assert (HC : forall c1 here q x, new_scope n c = Some (c1, here, q) -> addr_of n = Some (to_addr x) -> In x (own_address n) -> selected n q ->
      c_stack c1 = c_stack c -> c_errors c1 = c_errors c -> c_es c1 = c_es c -> (exists id w b o l, q = Select id w b o l) ->
      match enter_scope norm target n c with
      | Ok c' =>
          (exists q x i, is_query q /\ selected n q /\ In x (own_address n) /\ c_stack c' = (to_addr x, i) :: c_stack c /\
             astep (children q) (unsupported_select q \/ (asks q /\ cpending c)) (c_errors c) (c_es c) (c_errors c') (c_es c') /\
             (with_part q <> Nil -> cpending c')) \/
          (c_stack c' = c_stack c /\ c_errors c' = c_errors c /\ c_es c' = c_es c /\ ~ is_query q)
      | Err _ => False
      | Panic => crashes n end).
    { intros c1 here q x E HA HX HS E1 E2 E3 (id & w & b & o & l & ->). unfold enter_scope. rewrite E, HA.
      destruct b; try (right; rewrite E1, E2, E3; do 3 (split; [reflexivity|]); intros (? & ? & ? & ? & ? & ? & ? & ? & ? & ? & ? & X); discriminate).
      rewrite E2, E3.
      pose proof (collect_select_step norm target id w b1 b2 b3 b4 distinct_on group_by window o l (Some here) (c_errors c) (c_es c)) as H. cbv zeta in H.
      destruct (collect_select norm target (Some here) w (SelectClause b1 b2 b3 b4 distinct_on group_by window) o l (c_errors c) (c_es c)) as [[[[ts fs] e'] s']| |]; cbn [obind]; auto.
      - left. destruct H as [H1 H2]. exists (Select id w (SelectClause b1 b2 b3 b4 distinct_on group_by window) o l), x, here.
        split; [unfold is_query; eauto 15|]. split; auto. split; auto. cbn [c_stack c_errors c_es]. rewrite E1. split; auto.
      - destruct HS as [->|(sid & ->)]; auto. eapply crashes_within; [|exact H]. eapply within_child; [now left|]. apply within_kid. now left. }
    destruct n; try (destruct HNone as [-> HN]; [reflexivity|discriminate|discriminate|right; exact HN]).
    - (* Subquery *)
      destruct n; try (destruct HNone as [-> HN]; [reflexivity|discriminate|discriminate|right; exact HN]).
      destruct n; try (destruct HNone as [-> HN]; [reflexivity|discriminate|discriminate|right; exact HN]).
      cbn [new_scope] in HNone, HC. destruct (fget (es_found (c_es c)) id0) as [[m [p|]]|] eqn:EF.
      + specialize (HC _ _ _ (ASubquery id) eq_refl eq_refl (or_introl eq_refl) (or_intror (ex_intro _ id eq_refl)) eq_refl eq_refl eq_refl).
        match type of HC with ?X -> _ => assert (HX : X) by eauto 10; specialize (HC HX) end.
        destruct (enter_scope norm target _ c) as [c'| |]; auto. destruct HC as [HC|(H1 & H2 & H3 & H4)]; auto. right.
        do 3 (split; [auto|]). split; [discriminate|]. intros sid' i' w' b' o' l' E HQ. inversion E; subst. tauto.
      + destruct HNone as [-> HN]; auto; [discriminate|]. intros sid' i' w' b' o' l' E (? & ? & HO). inversion E; subst. congruence.
      + destruct HNone as [-> HN]; auto; [discriminate|]. intros sid' i' w' b' o' l' E (? & ? & HO). inversion E; subst. congruence.
    - (* Select *)
      assert (HD : (exists x p, fget (es_found (c_es c)) id = Some (x, Some p)) \/ forall x p, fget (es_found (c_es c)) id <> Some (x, Some p)).
      { destruct (fget (es_found (c_es c)) id) as [[x [p|]]|]; [left; eauto|right; intros; discriminate|right; intros; discriminate]. }
      destruct HD as [(x & p & EF)|EF].
      + unfold enter_scope. cbn [new_scope]. rewrite EF. right. do 3 (split; [auto|]). split; [|discriminate]. intros. match goal with E : Select _ _ _ _ _ = _ |- _ => inversion E; subst end. exists x, p. auto.
      + assert (HNS : exists c1 here, new_scope (Select id n1 n2 n3 n4) c = Some (c1, here, Select id n1 n2 n3 n4) /\ c_stack c1 = c_stack c /\ c_errors c1 = c_errors c /\ c_es c1 = c_es c).
        { cbn [new_scope]. destruct (fget (es_found (c_es c)) id) as [[x [p|]]|]; [elim (EF x p); reflexivity| |]; eexists; eexists; (split; [reflexivity|auto]). }
        destruct HNS as (c1 & here & E & E1 & E2 & E3).
        specialize (HC _ _ _ (ASelect id) E eq_refl (or_introl eq_refl) (or_introl eq_refl) E1 E2 E3). 
        match type of HC with ?X -> _ => assert (HX : X) by eauto 10; specialize (HC HX) end.
        destruct (enter_scope norm target _ c) as [c'| |]; auto. destruct HC as [HC|(H1 & H2 & H3 & H4)]; auto. right.
        do 3 (split; [auto|]). split; [|discriminate]. intros. match goal with E : Select _ _ _ _ _ = _ |- _ => inversion E; subst end. tauto.
  Qed.
  Lemma leave_step : forall n c, match leave_scope n c with
      | Ok c' => c_errors c' = c_errors c /\ c_es c' = c_es c /\ exists a i st, c_stack c = (a, i) :: st /\
          ((addr_of n = Some a /\ c_stack c' = st) \/ (addr_of n <> Some a /\ c_stack c' = c_stack c))
      | Err _ => False
      | Panic => c_stack c = [] end.
  Proof.
    intros n c. unfold leave_scope. destruct (c_stack c) as [|[a i] st] eqn:E; auto. destruct (addr_of n) as [b|] eqn:EB.
    - destruct (addr_eqb a b) eqn:EA.
      + apply addr_eqb_spec in EA. subst. simpl. do 2 (split; [auto|]). exists b, i, st. auto.
      + do 2 (split; [auto|]). exists a, i, st. split; auto. right. split; auto. intros X. inversion X; subst. assert (addr_eqb a a = true) by now apply addr_eqb_spec. congruence.
    - do 2 (split; [auto|]). exists a, i, st. split; auto. right. split; auto. discriminate.
  Qed.

  Notation go := (walk (enter_scope norm target) leave_scope).
  Notation go_all := (walk_all (enter_scope norm target) leave_scope).
  Definition refused (n : node) : Prop := unsupported_select n \/ with_query n.
  Record wstep (ks : list node) (c c' : collector) : Prop := mk_wstep {
    ws_stack : c_stack c' = c_stack c;
    ws_err : c_errors c <> [] -> c_errors c' <> [];
    ws_pend : cpending c -> cpending c';
    ws_owned : forall i, owned (c_es c') i -> owned (c_es c) i \/ exists x, In x ks /\ sub_id x i;
    ws_bad : forall k m, In k ks -> k <> Nil -> reached k m -> refused m -> c_errors c' <> [];
    ws_ask : cpending c -> forall k m, In k ks -> k <> Nil -> reached k m -> asks m -> c_errors c' <> [] }.
  Definition free (c : collector) (A : list address) : Prop := forall x a i st, In x A -> c_stack c = (a, i) :: st -> a <> to_addr x.
  Definition walks (n : node) : Prop := forall A, addresses n A -> NoDup A -> forall c u,
    (forall i, owned (c_es c) i -> In (ASelect i) A -> sub_id n i) -> free c A ->
    match go n c u with
    | Ok (c', _) => wstep [n] c c' /\ (c_stack c = [] -> exists q, selected n q /\ is_query q)
    | Err _ => False
    | Panic => c_stack c = [] \/ crashes n end.
  Lemma wstep_refl : forall c, wstep [] c c.
  Proof. intros c. constructor; auto; intros; match goal with H : In _ [] |- _ => destruct H end. Qed.
  Lemma wstep_app : forall k ks a b c, wstep [k] a b -> wstep ks b c -> wstep (k :: ks) a c.
  Proof.
    intros k ks a b c [A1 A2 A3 A4 A5 A6] [B1 B2 B3 B4 B5 B6]. constructor; auto.
    - congruence.
    - intros i Hi. destruct (B4 i Hi) as [K|(x & K1 & K2)]; [destruct (A4 i K) as [K'|(x & [<-|[]] & K2)]; auto|]; right; [exists k; split; [now left|auto]|exists x; split; [now right|auto]].
    - intros x m [<-|Hx] Hn Hr Hm; [apply B2; eapply A5; eauto; now left|eapply B5; eauto].
    - intros Hp x m [<-|Hx] Hn Hr Hm; [apply B2; eapply A6; eauto; now left|eapply B6; eauto].
  Qed.
  Lemma addresses_cons : forall x l c, addresses_all (x :: l) c -> exists a b, c = a ++ b /\ addresses x a /\ addresses_all l b.
  Proof. intros x l c H. inversion H; subst. eauto. Qed.
  Lemma walks_all : forall ks, (forall k, In k ks -> walks k) -> forall b, addresses_all ks b -> NoDup b -> forall c u,
    (forall i, owned (c_es c) i -> In (ASelect i) b -> exists k, In k ks /\ sub_id k i) -> free c b ->
    match go_all ks c u with
    | Ok (c', _) => wstep ks c c'
    | Err _ => False
    | Panic => c_stack c = [] \/ exists k, In k ks /\ crashes k end.
  Proof.
    induction ks as [|k ks IH]; intros HW b HB HN c u HO HF; cbn [walk_all]; [apply wstep_refl|].
    apply addresses_cons in HB. destruct HB as (a & r & -> & HA & HR).
    assert (HO1 : forall i, owned (c_es c) i -> In (ASelect i) a -> sub_id k i).
    { intros i Ho Hi. destruct (HO i Ho (in_or_app _ _ _ (or_introl Hi))) as (k' & [<-|Hk] & Hs); auto.
      exfalso. eapply NoDup_app_disj; [exact HN|exact Hi|]. eapply sub_address_all; eauto. }
    assert (HF1 : free c a) by (intros x ad i st Hx; apply HF; apply in_or_app; auto).
    assert (H1 := HW k (or_introl eq_refl) a HA (NoDup_app_l _ _ _ HN) c u HO1 HF1).
    destruct (go k c u) as [[c1 u1]| |]; cbn [obind fst snd].
    - destruct H1 as [H1 _].
      assert (HO2 : forall i, owned (c_es c1) i -> In (ASelect i) r -> exists k, In k ks /\ sub_id k i).
      { intros i Ho Hi. assert (HX : forall q, sub_id k q -> q = i -> False).
        { intros q Hq ->. eapply NoDup_app_disj; [exact HN| |exact Hi]. eapply sub_address; eauto. }
        destruct (ws_owned _ _ _ H1 i Ho) as [K|(x & [<-|[]] & K)]; [|elim (HX i K eq_refl)].
        destruct (HO i K (in_or_app _ _ _ (or_intror Hi))) as (k' & [<-|Hk] & Hs); [elim (HX i Hs eq_refl)|eauto]. }
      assert (HF2 : free c1 r) by (intros x ad i st Hx; rewrite (ws_stack _ _ _ H1); apply HF; apply in_or_app; auto).
      assert (H2 := IH (fun x Hx => HW x (or_intror Hx)) r HR (NoDup_app_r _ _ _ HN) c1 u1 HO2 HF2).
      destruct (go_all ks c1 u1) as [[c2 u2]| |]; auto.
      + eapply wstep_app; eauto.
      + rewrite (ws_stack _ _ _ H1) in H2. destruct H2 as [H2|(x & Hx & H2)]; auto. right. exists x. split; [now right|auto].
    - destruct H1.
    - destruct H1 as [H1|H1]; auto. right. exists k. split; [now left|auto].
  Qed.
  (** After entering a node: its children *)
  Lemma walks_kids : forall n, (forall k, In k (children n) -> walks k) -> forall a, addresses_all (children n) a -> NoDup a -> forall c u,
    (forall i, owned (c_es c) i -> In (ASelect i) a -> exists k, In k (children n) /\ sub_id k i) -> free c a ->
    match go_all (kids n) c u with
    | Ok (c', _) => wstep (kids n) c c'
    | Err _ => False
    | Panic => c_stack c = [] \/ crashes n end.
  Proof.
    intros n HW a HA HN c u HO HF. destruct (kids_sub n a HA HN) as (b & HB & HNb & HI & HS).
    assert (HO' : forall i, owned (c_es c) i -> In (ASelect i) b -> exists k, In k (kids n) /\ sub_id k i) by (intros i Ho Hi; apply HS; auto).
    assert (HF' : free c b) by (intros x ad i st Hx; apply HF; auto).
    assert (H := walks_all (kids n) (fun k Hk => HW k (kids_children n k Hk)) b HB HNb c u HO' HF').
    destruct (go_all (kids n) c u) as [[c' u']| |]; auto.
    destruct H as [H|(k & Hk & H)]; auto.
    right. eapply crashes_within; [|exact H]. apply within_kid. now apply kids_children.
  Qed.
  Lemma sub_below : forall n i, sub_id n i -> (exists k, In k (children n) /\ sub_id k i) \/ exists sid w b o l, n = Subquery sid (ParenSelect (Select i w b o l)).
  Proof.
    intros n i (sid & w & b & o & l & H). inversion H; subst; [right; eauto 10|]. left. exists k. split; auto. exists sid, w, b, o, l. auto.
  Qed.
  Lemma not_query : forall n, ~ is_query n -> ~ refused n /\ ~ asks n.
  Proof.
    intros n H. split.
    - intros [X|X]; destruct n; try (destruct X; fail); destruct n2; try (destruct X; fail); apply H; unfold is_query; eauto 15.
    - intros X; destruct n; try (destruct X; fail); destruct n2; try (destruct X; fail); apply H; unfold is_query; eauto 15.
  Qed.
  Lemma query_kind : forall n, is_query n -> ~ unsupported_kind n /\ n <> Nil /\ exists id w b o l, n = Select id w b o l.
  Proof. intros n (id & w & xs & fr & wh & hv & d & g & win & o & l & ->). simpl. split; auto. split; [discriminate|eauto 10]. Qed.
  Lemma is_query_dec : forall n, is_query n \/ ~ is_query n.
  Proof.
    intros n. destruct n; try (right; intros (? & ? & ? & ? & ? & ? & ? & ? & ? & ? & ? & X); discriminate).
    destruct n2; try (right; intros (? & ? & ? & ? & ? & ? & ? & ? & ? & ? & ? & X); discriminate). left. unfold is_query. eauto 15.
  Qed.
  (** What the children of a collected query make sure of *)
  Lemma collected_bad : forall q c c1 c2 c3, is_query q ->
    astep (children q) (unsupported_select q \/ (asks q /\ cpending c)) (c_errors c) (c_es c) (c_errors c1) (c_es c1) ->
    (with_part q <> Nil -> cpending c1) ->
    (c_errors c1 <> [] -> c_errors c2 <> []) -> (cpending c1 -> cpending c2) -> wstep (kids q) c2 c3 ->
    (refused q -> c_errors c3 <> []) /\ (cpending c -> asks q -> c_errors c3 <> []).
  Proof.
    intros q c c1 c2 c3 HQ (A1 & A2 & A3 & A4) HW M1 M2 HS. split.
    - intros [HU|HU]; [apply (ws_err _ _ _ HS), M1, A2; auto|].
      destruct (query_kind q HQ) as (HK & _ & id & w & b & o & l & ->).
      unfold with_query in HU. destruct b; try (destruct HU; fail). destruct HU as (Hw & k & m & H1 & H2 & H3 & H4).
      eapply (ws_ask _ _ _ HS); [apply M2, HW; auto|apply visible_kids; eauto|auto|eauto|auto].
    - intros HP HA. apply (ws_err _ _ _ HS), M1, A2. auto.
  Qed.
  Lemma below_bad : forall n c1 c2, wstep (kids n) c1 c2 -> forall m, reached n m -> m = n \/
    ((refused m -> c_errors c2 <> []) /\ (cpending c1 -> asks m -> c_errors c2 <> [])).
  Proof.
    intros n c1 c2 HS m H. inversion H; subst; auto. right. assert (In k (kids n)) by now apply visible_kids.
    split; intros; [eapply (ws_bad _ _ _ HS)|eapply (ws_ask _ _ _ HS)]; eauto.
  Qed.
  Lemma to_addr_inj : forall x y, to_addr x = to_addr y -> x = y.
  Proof. intros [] [] H; inversion H; auto. Qed.
  Lemma own_addr : forall n x, In x (own_address n) -> addr_of n = Some (to_addr x).
  Proof. intros n y Hx. destruct n; simpl in Hx; try tauto; destruct Hx as [<-|[]]; reflexivity. Qed.
  Lemma addr_own : forall n a, addr_of n = Some a -> exists x, In x (own_address n) /\ a = to_addr x.
  Proof. intros n ad Ha. destruct n; simpl in Ha; try discriminate; inversion Ha; subst; eexists; (split; [now left|reflexivity]). Qed.
  Definition in_subquery (n : node) : Prop := exists sid id w b o l, n = Subquery sid (ParenSelect (Select id w b o l)).
  Lemma in_subquery_dec : forall n, in_subquery n \/ ~ in_subquery n.
  Proof.
    intros n. destruct n; try (right; intros (? & ? & ? & ? & ? & ? & X); discriminate).
    destruct n; try (right; intros (? & ? & ? & ? & ? & ? & X); discriminate).
    destruct n; try (right; intros (? & ? & ? & ? & ? & ? & X); discriminate). left. unfold in_subquery. eauto 10.
  Qed.
  Lemma walk_plain : forall n, ~ in_subquery n -> (forall k, In k (children n) -> walks k) -> walks n.
  Proof.
    intros n HNS IH A HA HN c u HO HF. inversion HA as [n' l0 HA']; subst n' A.
    assert (HND : forall x, In x (own_address n) -> ~ In x l0) by (intros x H1 H2; eapply NoDup_app_disj; eauto).
    assert (HNl := NoDup_app_r _ _ _ HN).
    assert (HO' : forall i, owned (c_es c) i -> In (ASelect i) (own_address n ++ l0) -> exists k, In k (children n) /\ sub_id k i).
    { intros i Ho Hi. destruct (sub_below n i (HO i Ho Hi)) as [K|(sid & w & b & o & l & K)]; auto. elim HNS. unfold in_subquery. eauto 10. }
    rewrite walk_kids. pose proof (enter_step n c) as HE. destruct (enter_scope norm target n c) as [c1| |]; cbn [obind]; auto.
    destruct HE as [(q & x & s & HQ & HSel & HX & HSt & HAs & HWt)|(E1 & E2 & E3 & HNq & _)].
    - assert (n = q) by (destruct HSel as [?|(sid & ->)]; auto; elim HNS; destruct HQ as (? & ? & ? & ? & ? & ? & ? & ? & ? & ? & ? & ->); unfold in_subquery; eauto 10). subst q.
      assert (HP := HAs). destruct HP as (A1 & A2 & A3 & A4).
      assert (H := walks_kids n IH l0 HA' HNl c1 (with_unknown n u)).
      assert (HK : match walk_all (enter_scope norm target) leave_scope (kids n) c1 (with_unknown n u) with
        | Ok (c', _) => wstep (kids n) c1 c' | Err _ => False | Panic => c_stack c1 = [] \/ crashes n end).
      { apply H.
        - intros i Ho Hi. destruct (A4 i Ho) as [K|K]; auto. apply HO'; auto. apply in_or_app; auto.
        - intros y ad i st Hy E. rewrite HSt in E. inversion E; subst. intros X. apply to_addr_inj in X. subst. eapply HND; eauto. }
      clear H. destruct (walk_all (enter_scope norm target) leave_scope (kids n) c1 (with_unknown n u)) as [[c2 u2]| |]; cbn [obind fst snd]; auto.
      2: { destruct HK as [HK|HK]; [rewrite HSt in HK; discriminate|auto]. }
      pose proof (leave_step n c2) as HL. destruct (leave_scope n c2) as [c3| |]; cbn [obind]; auto.
      2: { rewrite (ws_stack _ _ _ HK), HSt in HL. discriminate. }
      destruct HL as (L1 & L2 & a & i & st & L3 & L4). rewrite (ws_stack _ _ _ HK), HSt in L3. inversion L3; subst a i st. clear L3.
      assert (LS : c_stack c3 = c_stack c) by (destruct L4 as [[_ L4]|[L4 _]]; auto; elim L4; now apply own_addr).
      destruct (collected_bad n c c1 c1 c2 HQ HAs HWt (fun x => x) (fun x => x) HK) as [CB1 CB2].
      split; [|intros _; exists n; split; [now left|auto]]. constructor; rewrite ?L1, ?L2; auto.
      + intros Hc. apply (ws_err _ _ _ HK). auto.
      + intros Hc. apply (ws_pend _ _ _ HK). auto.
      + intros i Hi. destruct (ws_owned _ _ _ HK i Hi) as [K|(k & K1 & K2)].
        * destruct (A4 i K) as [K'|(k & K1 & K2)]; auto. right. exists n. split; [now left|]. eapply sub_id_within; [apply within_kid; exact K1|auto].
        * right. exists n. split; [now left|]. eapply sub_id_within; [apply within_kid, kids_children; exact K1|auto].
      + intros k m [<-|[]] _ Hr Hm. destruct (below_bad n c1 c2 HK m Hr) as [->|[B1 _]]; auto.
      + intros Hp k m [<-|[]] _ Hr Hm. destruct (below_bad n c1 c2 HK m Hr) as [->|[_ B1]]; auto.
    - assert (HQ : ~ is_query n).
      { intros HQ. destruct (query_kind n HQ) as (_ & _ & id & w & b & o & l & En).
        assert (Ho := HNq id w b o l En HQ). assert (HI : In (ASelect id) (own_address n)) by (rewrite En; now left).
        destruct (HO' id Ho (in_or_app _ _ _ (or_introl HI))) as (k & K1 & K2). eapply HND; [exact HI|]. eapply sub_address_all; eauto. }
      assert (HK : match walk_all (enter_scope norm target) leave_scope (kids n) c1 (with_unknown n u) with
        | Ok (c', _) => wstep (kids n) c1 c' | Err _ => False | Panic => c_stack c1 = [] \/ crashes n end).
      { apply (walks_kids n IH l0 HA' HNl).
        - intros i Ho Hi. rewrite E3 in Ho. apply HO'; auto. apply in_or_app; auto.
        - intros y ad i st Hy E. rewrite E1 in E. eapply HF; eauto. apply in_or_app; auto. }
      destruct (walk_all (enter_scope norm target) leave_scope (kids n) c1 (with_unknown n u)) as [[c2 u2]| |]; cbn [obind fst snd]; auto.
      2: { rewrite E1 in HK. auto. }
      pose proof (leave_step n c2) as HL. destruct (leave_scope n c2) as [c3| |]; cbn [obind]; auto.
      2: { rewrite (ws_stack _ _ _ HK), E1 in HL. auto. }
      destruct HL as (L1 & L2 & a & i & st & L3 & L4). rewrite (ws_stack _ _ _ HK), E1 in L3.
      assert (LS : c_stack c3 = c_stack c).
      { destruct L4 as [[L4 _]|[_ L4]]; [|rewrite L4, (ws_stack _ _ _ HK), E1; auto]. exfalso.
        destruct (addr_own _ _ L4) as (x & Hx & ->). eapply HF; [|exact L3|reflexivity]. apply in_or_app; auto. }
      split; [|rewrite L3; discriminate]. destruct (not_query n HQ) as [NQ1 NQ2].
      constructor; rewrite ?L1, ?L2; auto.
      + intros Hc. apply (ws_err _ _ _ HK). rewrite E2. auto.
      + intros Hc. apply (ws_pend _ _ _ HK). rewrite E2, E3. auto.
      + intros j Hj. destruct (ws_owned _ _ _ HK j Hj) as [K|(k & K1 & K2)]; [rewrite E3 in K; auto|].
        right. exists n. split; [now left|]. eapply sub_id_within; [apply within_kid, kids_children; exact K1|auto].
      + intros k m [<-|[]] _ Hr Hm. destruct (below_bad n c1 c2 HK m Hr) as [->|[B1 _]]; auto.
      + intros Hp k m [<-|[]] _ Hr Hm. destruct (below_bad n c1 c2 HK m Hr) as [->|[_ B1]]; [tauto|]. apply B1; auto. rewrite E2, E3. auto.
  Qed.
  (** Entering, in a form that covers both cases *)
  Lemma enter_mono : forall n q c c1, selected n q -> (exists id w b o l, q = Select id w b o l) -> enter_scope norm target n c = Ok c1 ->
      ((exists x s, In x (own_address n) /\ c_stack c1 = (to_addr x, s) :: c_stack c /\ is_query q /\ astep (children q) (unsupported_select q \/ (asks q /\ cpending c)) (c_errors c) (c_es c) (c_errors c1) (c_es c1) /\ (with_part q <> Nil -> cpending c1)) \/
       (c_stack c1 = c_stack c /\ c_errors c1 = c_errors c /\ c_es c1 = c_es c)) /\ (c_errors c <> [] -> c_errors c1 <> []) /\ (cpending c -> cpending c1) /\ (forall i, owned (c_es c1) i -> owned (c_es c) i \/ exists k, In k (children q) /\ sub_id k i).
  Proof.
    intros n q c c1 HS (id & w & b & o & l & ->) E. pose proof (enter_step n c) as H. rewrite E in H.
    destruct H as [(q & x & s & HQ & HSel & HX & HSt & HAs & HWt)|(E1 & E2 & E3 & _ & _)].
    - assert (q = Select id w b o l).
      { destruct HQ as (? & ? & ? & ? & ? & ? & ? & ? & ? & ? & ? & ->). destruct HS as [->|(sid & ->)], HSel as [H|(sid' & H)]; try discriminate; inversion H; subst; auto. }
      subst q. split; [left; exists x, s; auto|]. destruct HAs as (A1 & A2 & A3 & A4). auto.
    - split; [right; auto|]. rewrite E2, E3. auto.
  Qed.
  Lemma walk_any : forall n, walks n.
  Proof.
    apply (node_sind walks). intros n IH. destruct (in_subquery_dec n) as [HI|HI].
    2: { apply walk_plain; auto. intros k Hk. eapply IH; [exact Hk|constructor]. }
    destruct HI as (sid & id & w & b & o & l & En). set (q := Select id w b o l) in *.
    assert (EQ : exists id w b o l, q = Select id w b o l) by (subst q; eauto 10).
    assert (IHq : forall k, In k (children q) -> walks k).
    { intros k Hk. apply (IH (ParenSelect q)); [rewrite En; now left|]. eapply within_child; [now left|]. now apply within_kid. }
    intros A HA HN c u HO HF.
    assert (HAd : exists aq, A = ASubquery sid :: ASelect id :: aq /\ addresses_all (children q) aq).
    { rewrite En in HA. inversion HA as [n1 l1 H1]; subst n1 A. apply addresses_cons in H1. destruct H1 as (a1 & b1 & -> & H1 & H2). inversion H2; subst b1.
      inversion H1 as [n2 l2 H3]; subst n2 a1. apply addresses_cons in H3. destruct H3 as (a3 & b3 & -> & H3 & H4). inversion H4; subst b3.
      inversion H3 as [n4 l4 H5]; subst n4 a3. exists l4. split; auto. simpl. now rewrite !app_nil_r. }
    destruct HAd as (aq & -> & HAq).
    assert (HNq : NoDup aq) by (inversion HN as [|? ? _ H1]; inversion H1; auto).
    assert (Hid : ~ In (ASelect id) aq) by (inversion HN as [|? ? _ H1]; inversion H1; auto).
    assert (Hsid : ~ In (ASubquery sid) aq) by (inversion HN as [|? ? H0 _]; intros X; apply H0; now right).
    assert (HOq : forall i, owned (c_es c) i -> In (ASelect i) aq -> exists k, In k (children q) /\ sub_id k i).
    { intros i Ho Hi. assert (Hs := HO i Ho (or_intror (or_intror Hi))). subst n.
      destruct (sub_below _ _ Hs) as [(k & [<-|[]] & Hk)|(? & ? & ? & ? & ? & X)]; [|inversion X; subst; tauto].
      destruct (sub_below _ _ Hk) as [(k & [<-|[]] & Hk')|(? & ? & ? & ? & ? & X)]; [|discriminate].
      destruct (sub_below _ _ Hk') as [K|(? & ? & ? & ? & ? & X)]; [exact K|discriminate]. }
    assert (WQ : within n q) by (rewrite En; eapply within_child; [now left|]; apply within_kid; now left).
    assert (SELn : selected n q) by (right; eauto). assert (SELq : selected q q) by now left.
    rewrite walk_kids. pose proof (enter_step n c) as HE. destruct (enter_scope norm target n c) as [c1| |] eqn:EN; cbn [obind]; auto.
    destruct (enter_mono n q c c1 SELn EQ EN) as (MS1 & ME1 & MP1 & MO1).
    replace (kids n) with [ParenSelect q] by (rewrite En; reflexivity). rewrite walk_all_1, walk_kids.
    assert (EP : forall c, enter_scope norm target (ParenSelect q) c = Ok c) by reflexivity. rewrite EP. cbn [obind].
    replace (kids (ParenSelect q)) with [q] by reflexivity. rewrite walk_all_1, walk_kids.
    pose proof (enter_step q c1) as HE2. destruct (enter_scope norm target q c1) as [c2| |] eqn:EN2; cbn [obind]; auto.
    2: { right. eapply crashes_within; eauto. }
    destruct (enter_mono q q c1 c2 SELq EQ EN2) as (MS2 & ME2 & MP2 & MO2).
    assert (HF2 : free c2 aq).
    { intros y ad i st Hy E X. subst ad. destruct MS2 as [(x & s & Hx & E2 & _)|(E2 & _)]; rewrite E2 in E.
      - inversion E as [[X1 X2]]. apply to_addr_inj in X1. rewrite X1 in Hx. destruct Hx as [<-|[]]. tauto.
      - destruct MS1 as [(x & s & Hx & E1 & _)|(E1 & _)]; rewrite E1 in E.
        + inversion E as [[X1 X2]]. apply to_addr_inj in X1. rewrite X1 in Hx. rewrite En in Hx. destruct Hx as [<-|[]]. tauto.
        + eapply HF; [|exact E|reflexivity]. now right; right. }
    assert (HO2 : forall i, owned (c_es c2) i -> In (ASelect i) aq -> exists k, In k (children q) /\ sub_id k i).
    { intros i Ho Hi. destruct (MO2 i Ho) as [K|K]; auto. destruct (MO1 i K) as [K'|K']; auto. }
    set (u2 := with_unknown q _). assert (HK := walks_kids q IHq aq HAq HNq c2 u2 HO2 HF2).
    destruct (walk_all (enter_scope norm target) leave_scope (kids q) c2 u2) as [[c3 u3]| |]; cbn [obind fst snd]; auto.
    2: { destruct HK as [HK|HK]; [left|right; eapply crashes_within; eauto].
         destruct MS2 as [(x & s & Hx & E2 & _)|(E2 & _)]; rewrite E2 in HK; [discriminate|].
         destruct MS1 as [(x & s & Hx & E1 & _)|(E1 & _)]; rewrite E1 in HK; [discriminate|auto]. }
    assert (HSt1 : c_stack c1 = [] -> c_stack c = []) by (destruct MS1 as [(x & s & Hx & E1 & _)|(E1 & _)]; rewrite E1; [discriminate|auto]).
    (* leaving the SELECT *)
    pose proof (leave_step q c3) as HL. destruct (leave_scope q c3) as [c4| |]; cbn [obind fst snd]; auto.
    2: { left. apply HSt1. rewrite (ws_stack _ _ _ HK) in HL. destruct MS2 as [(x & s & Hx & E2 & _)|(E2 & _)]; rewrite E2 in HL; [discriminate|auto]. }
    assert (S4 : c_stack c4 = c_stack c1).
    { destruct HL as (_ & _ & a & i & st & L3 & L4). rewrite (ws_stack _ _ _ HK) in *. destruct MS2 as [(x & s & Hx & E2 & _)|(E2 & _)].
      - rewrite E2 in L3. inversion L3; subst. destruct L4 as [[_ L4]|[L4 _]]; auto. elim L4. now apply own_addr.
      - destruct L4 as [[L4 _]|[_ L4]]; [|congruence]. exfalso. destruct (addr_own _ _ L4) as (x & Hx & ->). rewrite E2 in L3.
        destruct MS1 as [(y & s & Hy & E1 & _)|(E1 & _)].
        + rewrite E1 in L3. inversion L3 as [[X1 X2]]. apply to_addr_inj in X1. rewrite X1, En in Hy. destruct Hx as [<-|[]], Hy as [X|[]]. discriminate.
        + rewrite E1 in L3. eapply HF; [|exact L3|reflexivity]. destruct Hx as [<-|[]]. now right; left. }
    destruct HL as (LE4 & LS4 & _).
    (* the parentheses *)
    pose proof (leave_step (ParenSelect q) c4) as HL. destruct (leave_scope (ParenSelect q) c4) as [c5| |]; cbn [obind fst snd]; auto.
    2: { left. apply HSt1. congruence. }
    assert (S5 : c_stack c5 = c_stack c1).
    { destruct HL as (_ & _ & a & i & st & L3 & L4). destruct L4 as [[L4 _]|[_ L4]]; [discriminate|congruence]. }
    destruct HL as (LE5 & LS5 & _).
    (* the subquery *)
    pose proof (leave_step n c5) as HL. destruct (leave_scope n c5) as [c6| |]; cbn [obind fst snd]; auto.
    2: { left. apply HSt1. congruence. }
    assert (S6 : c_stack c6 = c_stack c /\ (c_stack c = [] -> is_query q)).
    { destruct HL as (_ & _ & a & i & st & L3 & L4). rewrite S5 in *. destruct MS1 as [(x & s & Hx & E1 & HQ & _)|(E1 & _)].
      - rewrite E1 in L3. inversion L3; subst a i st. split; auto. destruct L4 as [[_ L4]|[L4 _]]; auto. elim L4. now apply own_addr.
      - rewrite E1 in L3. split; [|rewrite L3; discriminate]. destruct L4 as [[L4 _]|[_ L4]]; [|congruence]. exfalso. destruct (addr_own _ _ L4) as (x & Hx & ->).
        eapply HF; [|exact L3|reflexivity]. rewrite En in Hx. destruct Hx as [<-|[]]. now left. }
    destruct HL as (LE6 & LS6 & _). destruct S6 as [S6 S6'].
    assert (HBad : (refused q -> c_errors c3 <> []) /\ (cpending c -> asks q -> c_errors c3 <> [])).
    { destruct (is_query_dec q) as [HQ|HQ]; [|destruct (not_query q HQ); tauto].
      destruct MS1 as [(x & s & Hx & E1 & _ & HAs & HWt)|(E1 & E2 & E3)].
      - exact (collected_bad q c c1 c2 c3 HQ HAs HWt ME2 MP2 HK).
      - destruct HE as [(q' & x & s & _ & _ & _ & HSt & _)|(_ & _ & _ & _ & HNo)].
        { exfalso. rewrite E1 in HSt. clear -HSt. induction (c_stack c); inversion HSt; auto. }
        assert (HNo' : ~ owned (c_es c1) id) by (rewrite E3; eapply HNo; [exact En|exact HQ]).
        destruct HE2 as [(q' & x & s & HQ' & HSel & _ & _ & HAs & HWt)|(_ & _ & _ & HYes & _)].
        + destruct HSel as [<-|(? & X)]; [|discriminate]. rewrite E2, E3 in HAs.
          exact (collected_bad q c c2 c2 c3 HQ HAs HWt (fun x => x) (fun x => x) HK).
        + elim HNo'. eapply HYes; [reflexivity|exact HQ]. }
    split.
    - constructor; rewrite ?LE6, ?LE5, ?LE4, ?LS6, ?LS5, ?LS4; auto.
      + intros Hc. apply (ws_err _ _ _ HK). auto.
      + intros Hc. apply (ws_pend _ _ _ HK). auto.
      + intros i Hi. assert (HX : forall k, In k (children q) -> sub_id k i -> exists x, In x [n] /\ sub_id x i).
        { intros k K1 K2. exists n. split; [now left|]. eapply sub_id_within; [|exact K2]. eapply within_trans; [exact WQ|]. now apply within_kid. }
        destruct (ws_owned _ _ _ HK i Hi) as [K|(k & K1 & K2)]; [|right; eapply HX; [apply kids_children; exact K1|auto]].
        destruct (MO2 i K) as [K'|(k & K1 & K2)]; [|right; eapply HX; eauto].
        destruct (MO1 i K') as [K''|(k & K1 & K2)]; [auto|right; eapply HX; eauto].
      + intros k m [<-|[]] _ Hr Hm.
        assert (HR : m = n \/ m = ParenSelect q \/ reached q m).
        { subst n. inversion Hr; subst; auto. match goal with X : In _ (visible _) |- _ => destruct X as [<-|[]] end.
          match goal with X : reached (ParenSelect q) m |- _ => inversion X; subst; auto end. match goal with X : In _ (visible (ParenSelect q)) |- _ => destruct X as [<-|[]] end. auto. }
        destruct HR as [->|[->|HR]]; [destruct Hm as [Hm|Hm]; subst n; destruct Hm|destruct Hm as [Hm|Hm]; destruct Hm|].
        destruct (below_bad q c2 c3 HK m HR) as [->|[B1 _]]; tauto.
      + intros Hp k m [<-|[]] _ Hr Hm.
        assert (HR : m = n \/ m = ParenSelect q \/ reached q m).
        { subst n. inversion Hr; subst; auto. match goal with X : In _ (visible _) |- _ => destruct X as [<-|[]] end.
          match goal with X : reached (ParenSelect q) m |- _ => inversion X; subst; auto end. match goal with X : In _ (visible (ParenSelect q)) |- _ => destruct X as [<-|[]] end. auto. }
        destruct HR as [->|[->|HR]]; [subst n; destruct Hm|destruct Hm|].
        destruct (below_bad q c2 c3 HK m HR) as [->|[_ B1]]; tauto.
    - intros Hc. exists q. auto.
  Qed.
End Walk.

(** ** All of collect_stmt_scopes.go *)
Section Scopes.
  Context (norm : gostring -> gostring) (target : gostring).
  Notation start := (mk_coll [] [] [] [] (mk_es None [] [])).
  Lemma start_owned : forall i, ~ owned (c_es start) i. Proof. intros i (x & p & H). discriminate. Qed.
  Lemma start_free : forall A, free start A. Proof. intros A x a i st _ H. discriminate. Qed.
  Lemma root_walk : forall root, distinct root -> (exists id w b o l, root = Select id w b o l) -> forall u,
      match walk (enter_scope norm target) leave_scope root start u with
      | Ok (c, _) => wstep norm target [root] start c /\ is_query root
      | Err _ => False
      | Panic => ~ is_query root \/ crashes root end.
  Proof.
    intros root HD HR u. destruct (addresses_total root) as [A HA].
    destruct (is_query_dec root) as [HQ|HQ].
    2: { assert (H := walk_any norm target root A HA (HD A HA) start u (fun i Hi _ => False_ind _ (start_owned i Hi)) (start_free A)).
         destruct (walk (enter_scope norm target) leave_scope root start u) as [[c u']| |]; auto.
         destruct H as [H1 H2]. split; auto. destruct (H2 eq_refl) as (q & [->|(sid & ->)] & H3); auto. destruct HR as (? & ? & ? & ? & ? & ?). discriminate. }
    assert (H := walk_any norm target root A HA (HD A HA) start u (fun i Hi _ => False_ind _ (start_owned i Hi)) (start_free A)).
    assert (HN := HD A HA). inversion HA as [n' l0 HA']; subst n' A. rewrite walk_kids in *.
    pose proof (enter_step norm target root start) as HE. destruct (enter_scope norm target root start) as [c1| |]; cbn [obind] in *; auto.
    destruct HE as [(q & x & s & _ & HSel & HX & HSt & HAs & HWt)|(E1 & E2 & E3 & HNq & _)].
    2: { exfalso. destruct HR as (? & ? & ? & ? & ? & HR). eapply start_owned. eapply HNq; eauto. }
    assert (root = q) by (destruct HSel as [?|(sid & ->)]; auto; destruct HR as (? & ? & ? & ? & ? & ?); discriminate). subst q.
    destruct HAs as (A1 & A2 & A3 & A4).
    assert (HK : match walk_all (enter_scope norm target) leave_scope (kids root) c1 (with_unknown root u) with
        | Ok (c', _) => wstep norm target (kids root) c1 c' | Err _ => False | Panic => c_stack c1 = [] \/ crashes root end).
    { eapply walks_kids; [intros k _; apply walk_any|exact HA'|exact (NoDup_app_r _ _ _ HN)| |].
      - intros i Ho Hi. destruct (A4 i Ho) as [K|K]; auto. elim (start_owned i K).
      - intros y ad i st Hy E. rewrite HSt in E. inversion E; subst. intros X. apply to_addr_inj in X. subst. eapply NoDup_app_disj; eauto. }
    destruct (walk_all (enter_scope norm target) leave_scope (kids root) c1 (with_unknown root u)) as [[c2 u2]| |]; cbn [obind fst snd] in *; auto.
    2: { destruct HK as [HK|HK]; auto. rewrite HSt in HK. discriminate. }
    pose proof (leave_step root c2) as HL. rewrite (ws_stack _ _ _ _ _ HK), HSt in HL.
    destruct (leave_scope root c2) as [c3| |]; cbn [obind] in *; auto; try discriminate. split; auto. apply H.
  Qed.
  Lemma scopes_crash : forall root, distinct root -> match collect_scopes norm target root with
      | Ok _ => True | Err _ => False
      | Panic => (exists id w b o l, root = Select id w b o l) /\ (~ is_query root \/ crashes root) end.
  Proof.
    intros root HD. unfold collect_scopes. destruct root; auto.
    assert (H := root_walk (Select id root1 root2 root3 root4) HD ltac:(eauto 10) []).
    destruct (walk _ _ _ _ _) as [[c u]| |]; cbn [obind]; auto; [|eauto 10].
    destruct (map _ u); auto. destruct (c_errors c); auto.
  Qed.
  Lemma scopes_not_query : forall root, distinct root -> (exists id w b o l, root = Select id w b o l) -> ~ is_query root -> collect_scopes norm target root = Panic.
  Proof.
    intros root HD HR HQ. assert (H := root_walk root HD HR []). destruct HR as (id & w & b & o & l & ->). unfold collect_scopes.
    destruct (walk _ _ _ _ _) as [[c u]| |]; cbn [obind]; auto; [|destruct H]. tauto.
  Qed.
  Lemma scopes_refuse : forall root, distinct root -> forall s, collect_scopes norm target root = Ok (inl s) ->
      is_query root /\ forall m, reached root m -> ~ unsupported_kind m /\ ~ unsupported_select norm target m /\ ~ with_query m.
  Proof.
    intros root HD s H. unfold collect_scopes in H. destruct root; try discriminate. set (root := Select id root1 root2 root3 root4) in *.
    assert (HR := root_walk root HD ltac:(unfold root; eauto 10) []).
    destruct (walk_events root) as (t & us & _ & W & _ & HU & _ & _). specialize (HU ltac:(discriminate)). rewrite W in *.
    destruct (run (enter_scope norm target) leave_scope t start) as [c| |]; cbn [obind fst snd] in *; try discriminate.
    destruct HR as [HR HQ]. split; auto. destruct us as [|x us]; [|discriminate]. simpl in H. destruct (c_errors c) eqn:EC; try discriminate.
    intros m Hm. assert (HX : ~ refused norm target m).
    { intros HX. eapply (ws_bad _ _ _ _ _ HR root m); eauto; [now left|discriminate]. }
    unfold refused in HX. split; [|tauto]. intros HK. destruct (proj2 (HU m)). auto.
  Qed.
End Scopes.

(** ** collect_table_names.go *)
Section Tables.
  Context (norm : gostring -> gostring).
  Notation go := (walk (enter_table norm) leave_table).
  Definition cte_of (ctes : list (list gostring)) (x : gostring) : Prop := exists l, In l ctes /\ In x l.
  Lemma is_cte_spec : forall tc x, is_cte tc x = true <-> cte_of (tc_ctes tc) x.
  Proof.
    intros tc x. unfold is_cte, cte_of. rewrite existsb_exists. split; intros (l & H1 & H2); exists l; (split; [auto|]).
    - now apply str_in_iff.
    - now apply str_in_iff.
  Qed.
  Lemma table_read_ext : forall n h1 h2 t, (forall x, h1 x <-> h2 x) -> table_read norm h1 n t -> table_read norm h2 n t.
  Proof.
    intros n h1 h2 t H HT. revert h2 H. induction HT as [h1 s t a la Hn|h1 n k t H1 H2 H3 H4 IH]; intros h2 H.
    - constructor. rewrite <- H. auto.
    - eapply read_below; eauto. apply IH. intros x. rewrite H. tauto.
  Qed.
  Lemma cte_names_spec : forall w x, (match w with With ctes => In x (cte_names norm ctes) | _ => False end) <-> declared norm w x.
  Proof.
    intros w x. destruct w; simpl; try tauto. unfold cte_names. rewrite in_flat_map. split.
    - intros (n & H1 & H2). destruct n; try (destruct H2; fail). destruct H2 as [<-|[]]. eauto.
    - intros (name & s & H1 & ->). exists (CTE name s). split; auto. now left.
  Qed.
  Record tstep (ks : list node) (c c' : tcollector) : Prop := mk_tstep {
    t_ctes : tc_ctes c' = tc_ctes c;
    t_new : exists T X, tc_tables c' = tc_tables c ++ T /\ tc_errors c' = tc_errors c ++ X /\
      (forall t, In t (map norm T) -> exists k, In k ks /\ k <> Nil /\ table_read norm (cte_of (tc_ctes c)) k t) /\
      (forall k t, In k ks -> k <> Nil -> table_read norm (cte_of (tc_ctes c)) k t -> In t (map norm T) \/ X <> []) /\
      (X <> [] <-> exists k m, In k ks /\ k <> Nil /\ reached k m /\ foreign_table m) }.

  Lemma tstep_refl : forall c, tstep [] c c.
  Proof.
    intros c. constructor; auto. exists [], []. rewrite !app_nil_r. do 2 (split; [auto|]). split; [intros t []|]. split; [intros k t []|].
    split; [congruence|intros (k & m & [] & _)].
  Qed.
  Lemma tstep_app : forall k ks a b c, tstep [k] a b -> tstep ks b c -> tstep (k :: ks) a c.
  Proof.
    intros k ks a b c [A1 (T & X & A2 & A3 & A4 & A5 & A6)] [B1 (T' & X' & B2 & B3 & B4 & B5 & B6)]. constructor; [congruence|].
    exists (T ++ T'), (X ++ X'). rewrite B2, B3, A2, A3, <- !app_assoc. do 2 (split; [auto|]). rewrite A1 in *.
    assert (HX : X ++ X' <> [] <-> X <> [] \/ X' <> []).
    { destruct X; simpl; [|split; [intros _; left; discriminate|discriminate]]. split; [auto|]. intros [H|H]; [congruence|auto]. }
    split; [|split].
    - intros t Ht. rewrite map_app, in_app_iff in Ht. destruct Ht as [Ht|Ht].
      + destruct (A4 t Ht) as (x & [<-|[]] & H). exists k. split; [now left|auto].
      + destruct (B4 t Ht) as (x & Hx & H). exists x. split; [now right|auto].
    - intros x t Hx Hn Ht. rewrite HX, map_app, in_app_iff. destruct Hx as [<-|Hx].
      + destruct (A5 k t (or_introl eq_refl) Hn Ht); auto.
      + destruct (B5 x t Hx Hn Ht); auto.
    - rewrite HX, A6, B6. split.
      + intros [(x & m & [<-|[]] & H)|(x & m & Hx & H)]; [exists k, m; split; [now left|auto]|exists x, m; split; [now right|auto]].
      + intros (x & m & [<-|Hx] & H); [left; exists k, m; split; [now left|auto]|right; exists x, m; auto].
  Qed.
  Lemma twalk : forall n c u, exists c' u', go n c u = Ok (c', u') /\ tstep [n] c c'.
  Proof.
    apply (node_ind' (fun n => forall c u, exists c' u', go n c u = Ok (c', u') /\ tstep [n] c c')).
    intros n IH c u. rewrite Forall_forall in IH. rewrite walk_kids.
    assert (HL : forall ks, (forall k, In k ks -> In k (children n)) -> forall c u, exists c' u', walk_all (enter_table norm) leave_table ks c u = Ok (c', u') /\ tstep ks c c').
    { induction ks as [|k ks IHk]; intros Hin c0 u0; cbn [walk_all]; [exists c0, u0; split; auto; apply tstep_refl|].
      destruct (IH k (Hin k (or_introl eq_refl)) c0 u0) as (c1 & u1 & -> & H1). cbn [obind fst snd].
      destruct (IHk (fun x Hx => Hin x (or_intror Hx)) c1 u1) as (c2 & u2 & -> & H2). exists c2, u2. split; auto. eapply tstep_app; eauto. }
    assert (HE : exists c1 T0 X0, enter_table norm n c = Ok c1 /\ tc_tables c1 = tc_tables c ++ T0 /\ tc_errors c1 = tc_errors c ++ X0 /\
      (forall x, cte_of (tc_ctes c1) x <-> cte_of (tc_ctes c) x \/ declared norm (with_of n) x) /\
      (forall c2, tc_ctes c2 = tc_ctes c1 -> exists c3, leave_table n c2 = Ok c3 /\ tc_ctes c3 = tc_ctes c /\ tc_tables c3 = tc_tables c2 /\ tc_errors c3 = tc_errors c2) /\
      (forall t, In t (map norm T0) -> exists s t0 as_ lat, n = Aliased (TableName [] s t0) as_ lat /\ t = norm t0 /\ ~ cte_of (tc_ctes c) t) /\
      (forall s t0 as_ lat, n = Aliased (TableName [] s t0) as_ lat -> ~ cte_of (tc_ctes c) (norm t0) -> In (norm t0) (map norm T0) \/ X0 <> []) /\
      (X0 <> [] <-> foreign_table n)).
    { assert (HPlain : enter_table norm n c = Ok c -> (forall c2, leave_table n c2 = Ok c2) -> (forall x, ~ declared norm (with_of n) x) -> (forall a b d e f, n <> Aliased (TableName a b d) e f) ->
        exists c1 T0 X0, enter_table norm n c = Ok c1 /\ tc_tables c1 = tc_tables c ++ T0 /\ tc_errors c1 = tc_errors c ++ X0 /\
      (forall x, cte_of (tc_ctes c1) x <-> cte_of (tc_ctes c) x \/ declared norm (with_of n) x) /\
      (forall c2, tc_ctes c2 = tc_ctes c1 -> exists c3, leave_table n c2 = Ok c3 /\ tc_ctes c3 = tc_ctes c /\ tc_tables c3 = tc_tables c2 /\ tc_errors c3 = tc_errors c2) /\
      (forall t, In t (map norm T0) -> exists s t0 as_ lat, n = Aliased (TableName [] s t0) as_ lat /\ t = norm t0 /\ ~ cte_of (tc_ctes c) t) /\
      (forall s t0 as_ lat, n = Aliased (TableName [] s t0) as_ lat -> ~ cte_of (tc_ctes c) (norm t0) -> In (norm t0) (map norm T0) \/ X0 <> []) /\
      (X0 <> [] <-> foreign_table n)).
      { intros E1 E2 E3 E4. exists c, [], []. rewrite !app_nil_r. do 3 (split; [auto|]). split; [intros x; specialize (E3 x); tauto|].
        split; [intros c2 H; exists c2; auto|]. split; [intros t []|]. split; [intros; elim (E4 [] s t0 as_ lat); auto|].
        split; [congruence|]. intros H. destruct n; try (destruct H; fail). destruct n; try (destruct H; fail). elim (E4 catalog schema name as_ lateral). reflexivity. }
      destruct n; try (apply HPlain; [reflexivity|reflexivity|intros x []|discriminate]).
      - (* Select *) destruct n1; try (apply HPlain; [reflexivity|reflexivity|intros x []|discriminate]).
        eexists. exists [], []. split; [reflexivity|]. cbn [tc_tables tc_errors tc_ctes]. rewrite !app_nil_r. do 2 (split; [auto|]).
        split.
        { intros x. unfold cte_of. simpl with_of. rewrite <- cte_names_spec. split.
          - intros (l & [<-|Hl] & Hx); eauto.
          - intros [(l & Hl & Hx)|Hx]; [exists l|eexists]; (split; [|exact Hx]); [now right|now left]. }
        split; [intros c2 H; eexists; split; [reflexivity|]; simpl; rewrite H; auto|].
        split; [intros t []|]. split; [discriminate|]. split; [congruence|intros []].
      - (* Aliased *) destruct n; try (apply HPlain; [reflexivity|reflexivity|intros x []|discriminate]).
        exists (add_table norm catalog schema name c).
        assert (HC : tc_ctes (add_table norm catalog schema name c) = tc_ctes c) by (unfold add_table; destruct (_ || _)%bool; auto; destruct (is_cte c (norm name)); auto).
        assert (HF : ((negb (seqb schema (lit "public")) && negb (seqb schema [])) || negb (seqb catalog []))%bool = true <-> foreign_table (Aliased (TableName catalog schema name) as_ lateral)).
        { simpl. rewrite orb_true_iff, andb_true_iff, !negb_true_iff, !seqb_neq. tauto. }
        destruct (((negb (seqb schema (lit "public")) && negb (seqb schema [])) || negb (seqb catalog []))%bool) eqn:EF.
        + exists [], [err_explicit catalog schema name]. split; [reflexivity|]. rewrite HC. unfold add_table. rewrite EF. cbn [tc_tables tc_errors]. rewrite app_nil_r.
          do 2 (split; [auto|]). split; [simpl; tauto|]. split; [intros c2 H; exists c2; auto|]. split; [intros t []|]. split; [right; discriminate|].
          split; [intros _; now apply HF|discriminate].
        + assert (HNF : ~ foreign_table (Aliased (TableName catalog schema name) as_ lateral)) by (intros X; apply HF in X; discriminate).
          assert (HCat : catalog = []) by (destruct catalog; auto; exfalso; apply HNF; simpl; left; discriminate).
          destruct (is_cte c (norm name)) eqn:EC.
          * exists [], []. split; [reflexivity|]. rewrite HC. unfold add_table. rewrite EF, EC. apply is_cte_spec in EC. rewrite !app_nil_r. do 2 (split; [auto|]). split; [simpl; tauto|]. split; [intros c2 H; exists c2; auto|].
            split; [intros t []|]. split; [|split; [congruence|tauto]]. intros s t0 a la E HN. inversion E; subst. tauto.
          * assert (HN : ~ cte_of (tc_ctes c) (norm name)) by (intros X; apply is_cte_spec in X; congruence).
            exists [name], []. split; [reflexivity|]. rewrite HC. unfold add_table. rewrite EF, EC. cbn [tc_tables tc_errors tc_ctes]. rewrite !app_nil_r. do 2 (split; [auto|]). split; [simpl; tauto|]. split; [intros c2 H; exists c2; auto|].
            split; [intros t [<-|[]]; subst catalog; eauto 10|]. split; [|split; [congruence|tauto]]. intros s t0 a la E _. inversion E; subst. left. now left. }
    destruct HE as (c1 & T0 & X0 & -> & E1 & E2 & E3 & E4 & E5 & E6 & E7). cbn [obind].
    destruct (HL (kids n) (kids_children n) c1 (with_unknown n u)) as (c2 & u2 & -> & [K1 (T & X & K2 & K3 & K4 & K5 & K6)]). cbn [obind fst snd].
    destruct (E4 c2 K1) as (c3 & -> & F1 & F2 & F3). cbn [obind]. exists c3, u2. split; auto. constructor; auto.
    exists (T0 ++ T), (X0 ++ X). rewrite F2, F3, K2, K3, E1, E2, <- !app_assoc. do 2 (split; [auto|]).
    assert (HX : X0 ++ X <> [] <-> X0 <> [] \/ X <> []).
    { destruct X0; simpl; [|split; [intros _; left; discriminate|discriminate]]. split; [auto|]. intros [H|H]; [congruence|auto]. }
    assert (HKV : forall k, In k (kids n) -> k <> Nil -> ~ unsupported_kind n /\ In k (visible n)).
    { intros k Hk Hn. destruct (known n) eqn:EK; [|rewrite (kids_unknown n EK) in Hk; destruct Hk].
      assert (HU : ~ unsupported_kind n) by (intros HU; apply known_unsupported in HU; congruence). split; auto.
      assert (HY : In k (real (visible n))) by (eapply Permutation_in; [apply kids_visible; auto|]; apply filter_In; split; auto; destruct k; auto; congruence).
      apply filter_In in HY. tauto. }
    split; [|split].
    - intros t Ht. rewrite map_app, in_app_iff in Ht. exists n. split; [now left|]. destruct Ht as [Ht|Ht].
      + destruct (E5 t Ht) as (s & t0 & as_ & lat & -> & -> & Hc). split; [discriminate|]. now constructor.
      + destruct (K4 t Ht) as (k & Hk & Hn & HT). destruct (HKV k Hk Hn) as [HU HV]. split; [intros ->; destruct Hk|]. eapply read_below; eauto.
        eapply table_read_ext; [|exact HT]. intros x. apply E3.
    - intros k t [<-|[]] _ HT. rewrite map_app, in_app_iff, HX. inversion HT as [h s t0 as_ lat Hn E EE|h n' k t' H1 H2 H3 H4]; subst.
      + destruct (E6 s t0 as_ lat eq_refl Hn); auto.
      + destruct (K5 k t (visible_kids _ _ H1 H2 H3) H3); auto. eapply table_read_ext; [|exact H4]. intros x. symmetry. apply E3.
    - rewrite HX, E7, K6. split.
      + intros [H|(k & m & Hk & Hn & Hr & Hf)].
        * exists n, n. split; [now left|]. split; [intros ->; destruct H|]. split; [constructor|auto].
        * destruct (HKV k Hk Hn) as [HU HV]. exists n, m. split; [now left|]. split; [intros ->; destruct Hk|]. split; auto. econstructor; eauto.
      + intros (k & m & [<-|[]] & Hn & Hr & Hf). inversion Hr; subst; auto. right. exists k, m. split; [|auto]. now apply visible_kids.
  Qed.
End Tables.
