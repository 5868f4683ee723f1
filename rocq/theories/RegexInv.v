(** Inversion and introduction of regular expression matches, one lemma per
    construct. *)
From Coq Require Import String List NArith ZArith Bool Lia Arith.
From Verif Require Import Base Regex IndexTextProofs.
Import ListNotations.
Local Open Scope nat_scope.

Lemma M_cat_inv : forall a b i s c i2 s2 c2, M (Cat a b) i s c i2 s2 c2 ->
    exists i1 s1 c1, M a i s c i1 s1 c1 /\ M b i1 s1 c1 i2 s2 c2.
Proof. intros a b i s c i2 s2 c2 H. inversion H; subst. eauto. Qed.
Lemma M_chr_inv : forall p i s c i2 s2 c2, M (Chr p) i s c i2 s2 c2 ->
    exists x, s = x :: s2 /\ i2 = S i /\ c2 = c /\ p x = true.
Proof. intros p i s c i2 s2 c2 H. inversion H; subst. eauto. Qed.
Lemma M_ch_inv : forall y i s c i2 s2 c2, M (ch y) i s c i2 s2 c2 ->
    s = y :: s2 /\ i2 = S i /\ c2 = c.
Proof.
  intros y i s c i2 s2 c2 H. apply M_chr_inv in H. destruct H as (x & -> & -> & -> & E).
  apply N.eqb_eq in E. subst. auto.
Qed.
Lemma M_alt_inv : forall a b i s c i2 s2 c2, M (Alt a b) i s c i2 s2 c2 ->
    M a i s c i2 s2 c2 \/ M b i s c i2 s2 c2.
Proof. intros a b i s c i2 s2 c2 H. inversion H; subst; auto. Qed.
Lemma M_eps_inv : forall i s c i2 s2 c2, M Eps i s c i2 s2 c2 -> i2 = i /\ s2 = s /\ c2 = c.
Proof. intros i s c i2 s2 c2 H. inversion H; subst; auto. Qed.
Lemma M_opt_inv : forall a i s c i2 s2 c2, M (opt a) i s c i2 s2 c2 ->
    M a i s c i2 s2 c2 \/ (i2 = i /\ s2 = s /\ c2 = c).
Proof. intros a i s c i2 s2 c2 H. apply M_alt_inv in H. destruct H as [H|H]; auto using M_eps_inv. Qed.
Lemma M_bot_inv : forall i s c i2 s2 c2, M Bot i s c i2 s2 c2 -> i = 0 /\ i2 = 0 /\ s2 = s /\ c2 = c.
Proof. intros i s c i2 s2 c2 H. inversion H; subst; auto. Qed.
Lemma M_grp_inv : forall n a i s c i2 s2 c2, M (Grp n a) i s c i2 s2 c2 ->
    exists w c1, M a i s c i2 s2 c1 /\ s = w ++ s2 /\ i2 = i + length w /\ c2 = (n, w) :: c1.
Proof.
  intros n a i s c i2 s2 c2 H. inversion H; subst.
  match goal with H : M a _ _ _ _ _ _ |- _ =>
    pose proof H as HM; apply M_consumes in H; destruct H as (w & -> & ->) end.
  exists w, c1. split; auto. split; auto. split; auto. f_equal. f_equal.
  replace (i + length w - i) with (length w) by lia.
  rewrite firstn_app, firstn_all, Nat.sub_diag. simpl. apply app_nil_r.
Qed.
Lemma M_str_inv : forall p i s c i' s' c', M (str p) i s c i' s' c' -> s = p ++ s' /\ i' = i + length p /\ c' = c.
Proof.
  induction p as [|x p IH]; intros i s c i' s' c' H.
  - simpl in H. apply M_eps_inv in H. destruct H as (-> & -> & ->). simpl. auto.
  - destruct p as [|y p].
    + simpl in H. apply M_ch_inv in H. destruct H as (-> & -> & ->). simpl. split; auto. split; auto. lia.
    + change (str (x :: y :: p)) with (Cat (ch x) (str (y :: p))) in H.
      apply M_cat_inv in H. destruct H as (i1 & s1 & c1 & H1 & H2).
      apply M_ch_inv in H1. destruct H1 as (-> & -> & ->).
      apply IH in H2. destruct H2 as (-> & -> & ->). split; auto. split; auto. simpl. lia.
Qed.
Lemma M_str_intro : forall p i s c, M (str p) i (p ++ s) c (i + length p) s c.
Proof.
  induction p as [|x p IH]; intros i s c.
  - simpl. rewrite Nat.add_0_r. constructor.
  - destruct p as [|y p].
    + simpl. replace (i + 1) with (S i) by lia. constructor. apply N.eqb_refl.
    + change (str (x :: y :: p)) with (Cat (ch x) (str (y :: p))).
      apply M_Cat with (S i) ((y :: p) ++ s) c.
      * constructor. apply N.eqb_refl.
      * replace (i + length (x :: y :: p)) with (S i + length (y :: p)) by (simpl; lia). apply IH.
Qed.
Lemma M_ch_intro : forall x i s c, M (ch x) i (x :: s) c (S i) s c.
Proof. intros. constructor. apply N.eqb_refl. Qed.
Lemma M_plus_inv : forall g p i s c i' s' c', M (plus g (Chr p)) i s c i' s' c' ->
    exists w, s = w ++ s' /\ i' = i + length w /\ c' = c /\ forallb p w = true /\ w <> [].
Proof.
  intros g p i s c i' s' c' H. apply M_cat_inv in H. destruct H as (i1 & s1 & c1 & H1 & H2).
  apply M_chr_inv in H1. destruct H1 as (x & -> & -> & -> & Hx).
  apply M_star_chr in H2. destruct H2 as (w & -> & -> & -> & Hw).
  exists (x :: w). simpl. rewrite Hx, Hw. repeat split; try lia. congruence.
Qed.
Lemma M_plus_intro : forall g p w i s c, forallb p w = true -> w <> [] ->
    M (plus g (Chr p)) i (w ++ s) c (i + length w) s c.
Proof.
  intros g p [|x w] i s c H Hne; [congruence|]. simpl in H. apply andb_true_iff in H. destruct H as [H1 H2].
  apply M_Cat with (S i) (w ++ s) c; [constructor; auto|].
  replace (i + length (x :: w)) with (S i + length w) by (simpl; lia). now apply M_star_chr_intro.
Qed.
Lemma M_grp_intro : forall n a i w s c c1, M a i (w ++ s) c (i + length w) s c1 ->
    M (Grp n a) i (w ++ s) c (i + length w) s ((n, w) :: c1).
Proof.
  intros n a i w s c c1 H. apply M_Grp with (n := n) in H.
  replace (i + length w - i) with (length w) in H by lia.
  rewrite firstn_app, firstn_all, Nat.sub_diag in H. simpl in H. now rewrite app_nil_r in H.
Qed.

(** Captures do not influence whether an expression matches. *)
Lemma M_caps : forall r i s c i' s' c', M r i s c i' s' c' -> forall d, exists d', M r i s d i' s' d'.
Proof.
  induction 1; intros d.
  - eexists; constructor.
  - eexists; constructor; auto.
  - destruct (IHM1 d) as [d1 K1]. destruct (IHM2 d1) as [d2 K2]. eexists; econstructor; eauto.
  - destruct (IHM d) as [d1 K1]. eexists; apply M_AltL; eauto.
  - destruct (IHM d) as [d1 K1]. eexists; apply M_AltR; eauto.
  - destruct (IHM d) as [d1 K1]. eexists; apply M_Grp; eauto.
  - eexists; constructor.
  - eexists; constructor.
  - eexists; constructor.
  - destruct (IHM1 d) as [d1 K1]. destruct (IHM2 d1) as [d2 K2]. eexists; eapply M_More; eauto.
Qed.

(** What a successful search found. *)
Lemma match_at_sound : forall r i s m, match_at r i s = Some m ->
    exists i' c', M r i s [] i' (m_rest m) c' /\ m_start m = i /\ m_caps m = c' /\ s = m_text m ++ m_rest m.
Proof.
  intros r i s m H. unfold match_at in H. apply mt_sound in H.
  destruct H as (i' & s' & c' & HM & HE). inversion HE; subst; simpl.
  exists i', c'. split; auto. split; auto. split; auto.
  apply M_consumes in HM. destruct HM as (w & -> & ->).
  replace (i + length w - i) with (length w) by lia.
  now rewrite firstn_app, firstn_all, Nat.sub_diag, app_nil_r.
Qed.
Lemma find_from_sound : forall r s i m, find_from r i s = Some m ->
    exists w s1 i' c', s = w ++ s1 /\ M r (i + length w) s1 [] i' (m_rest m) c' /\
      m_start m = i + length w /\ m_caps m = c' /\ s1 = m_text m ++ m_rest m /\
      (forall w1 w2, w = w1 ++ w2 -> w2 <> [] -> forall i' s' c', ~ M r (i + length w1) (w2 ++ s1) [] i' s' c').
Proof.
  induction s as [|x s IH]; intros i m H; simpl in H.
  - destruct (match_at r i []) eqn:E; [|congruence]. inversion H; subst.
    apply match_at_sound in E. destruct E as (i' & c' & HM & H1 & H2 & H3).
    exists [], [], i', c'. simpl. rewrite Nat.add_0_r. repeat (split; auto).
    intros [|? ?] w2 E; [|discriminate]. simpl in E. congruence.
  - destruct (match_at r i (x :: s)) eqn:E.
    + inversion H; subst. apply match_at_sound in E. destruct E as (i' & c' & HM & H1 & H2 & H3).
      exists [], (x :: s), i', c'. simpl. rewrite Nat.add_0_r. repeat (split; auto).
      intros [|? ?] w2 E; [|discriminate]. simpl in E. congruence.
    + apply IH in H. destruct H as (w & s1 & i' & c' & -> & HM & H1 & H2 & H3 & H4).
      exists (x :: w), s1, i', c'. simpl. rewrite Nat.add_succ_r. simpl in *.
      split; auto. split; auto. split; auto. split; auto. split; auto.
      intros [|y w1] w2 Ew Hne i2 s2 c2 HM2.
      * simpl in Ew. subst w2. simpl in HM2. rewrite Nat.add_0_r in HM2.
        assert (HN : match_at r i (x :: w ++ s1) <> None) by (apply match_at_iff; eauto). congruence.
      * simpl in Ew. inversion Ew; subst. simpl in HM2. rewrite Nat.add_succ_r in HM2.
        eapply H4; eauto.
Qed.
Lemma find_sound : forall r s m, find r s = Some m ->
    exists w s1 i' c', s = w ++ s1 /\ M r (length w) s1 [] i' (m_rest m) c' /\
      m_start m = length w /\ m_caps m = c' /\ s1 = m_text m ++ m_rest m /\
      (forall w1 w2, w = w1 ++ w2 -> w2 <> [] -> forall i' s' c', ~ M r (length w1) (w2 ++ s1) [] i' s' c').
Proof. intros r s m H. apply find_from_sound in H. exact H. Qed.
Lemma find_none : forall r s, find r s = None <->
    forall w s1 i' s' c', s = w ++ s1 -> ~ M r (length w) s1 [] i' s' c'.
Proof.
  intros r s. pose proof (find_from_iff r s 0) as H. unfold find. split.
  - intros E w s1 i' s' c' -> HM. rewrite E in H.
    assert (None <> @None match_result); [|congruence]. apply H. exists w, s1, i', s', c'. auto.
  - intros HN. destruct (find_from r 0 s) eqn:E; auto. exfalso.
    assert (HX : Some m <> None) by congruence. apply H in HX.
    destruct HX as (w & s1 & i' & s' & c' & -> & HM). eapply HN; eauto.
Qed.
