(** Proofs about the PostgreSQL explain groups. *)
From Coq Require Import String List NArith ZArith QArith Bool Lia Arith.
From Verif Require Import Base Dec Regex RegexInv IndexTextProofs ExplainTree ExplainSpec ExplainTreeProofs PgExplain PgExplainSpec.
Import ListNotations.
Local Open Scope nat_scope.

(** ** What the three expressions accept *)
Lemma arrow_iff : forall l, match_string arrow_reg l = true <-> arrow_line l.
Proof.
  intros l. rewrite match_string_iff. unfold matches_somewhere, arrow_reg, arrow_line. split.
  - intros (w & s1 & i' & s' & c' & -> & H).
    apply M_cat_inv in H. destruct H as (i1 & s2 & c1 & H1 & H2).
    apply M_star_chr in H1. destruct H1 as (v & -> & -> & -> & _).
    apply M_str_inv in H2. destruct H2 as (-> & _ & _).
    exists (w ++ v), s'. now rewrite <- app_assoc.
  - intros (a & b & ->). exists a, (lit "-> " ++ b), (length a + 3), b, [].
    split; auto. apply M_Cat with (length a) (lit "-> " ++ b) []; [constructor|].
    apply (M_str_intro (lit "-> ")).
Qed.

Lemma summary_iff : forall l, match_string summary_reg l = true <-> summary_line l.
Proof.
  intros l. rewrite match_string_iff. unfold matches_somewhere, summary_reg, summary_line. split.
  - intros (w & s1 & i' & s' & c' & -> & H). cbn [cats] in H.
    apply M_cat_inv in H. destruct H as (i1 & s2 & c1 & H1 & H2).
    apply M_bot_inv in H1. destruct H1 as (Hw & -> & -> & ->).
    apply length_zero_iff_nil in Hw. subst w. simpl.
    apply M_cat_inv in H2. destruct H2 as (i1 & s2 & c1 & H1 & H2).
    apply M_chr_inv in H1. destruct H1 as (x & -> & -> & -> & Hx).
    apply M_cat_inv in H2. destruct H2 as (i1 & s3 & c1 & H1 & H2).
    apply M_plus_inv in H1. destruct H1 as (v & -> & -> & -> & Hv & Hne).
    apply M_ch_inv in H2. destruct H2 as (-> & _ & _).
    exists x, v, s'. split; auto. split; auto. split; auto.
    rewrite Forall_forall. rewrite forallb_forall in Hv. intros y Hy. apply Hv in Hy.
    unfold is_word_space in Hy. apply orb_true_iff in Hy. destruct Hy as [Hy|Hy]; auto.
    right. now apply N.eqb_eq.
  - intros (c & t & b & -> & Hc & Hne & Ht).
    exists [], (c :: t ++ lit ":" ++ b), (S (1 + length t)), b, []. split; auto. cbn [cats].
    apply M_Cat with 0 (c :: t ++ lit ":" ++ b) []; [constructor|].
    apply M_Cat with 1 (t ++ lit ":" ++ b) []; [constructor; auto|].
    apply M_Cat with (1 + length t) (lit ":" ++ b) []; [|apply M_ch_intro].
    apply M_plus_intro; auto. apply forallb_forall. intros y Hy.
    rewrite Forall_forall in Ht. apply Ht in Hy. unfold is_word_space.
    destruct Hy as [->| ->]; reflexivity.
Qed.

(** One repetition of a word with an optional space ends in a word character and at
    most one space. *)
Definition ends_word (w : gostring) : Prop :=
  exists a c, is_word c = true /\ (w = a ++ [c] \/ w = a ++ [c; 32%N]).
Lemma info_body : forall i s c i' s' c',
    M (Grp 1 (Cat (plus true word) (opt (ch 32)))) i s c i' s' c' ->
    exists w, s = w ++ s' /\ ends_word w.
Proof.
  intros i s c i' s' c' H. apply M_grp_inv in H. destruct H as (w & c1 & H & -> & -> & ->).
  apply M_cat_inv in H. destruct H as (i1 & s1 & c2 & H1 & H2).
  apply M_plus_inv in H1. destruct H1 as (v & Ev & -> & -> & Hv & Hne).
  destruct (exists_last Hne) as (a & x & ->). rewrite forallb_app in Hv. simpl in Hv.
  apply andb_true_iff in Hv. destruct Hv as [_ Hx]. rewrite andb_true_r in Hx.
  exists w. split; auto.
  apply M_opt_inv in H2. destruct H2 as [H2|(Hi & -> & _)].
  - apply M_ch_inv in H2. destruct H2 as (-> & _ & _).
    exists a, x. split; auto. right.
    apply (app_inv_tail s'). rewrite Ev, <- !app_assoc. reflexivity.
  - exists a, x. split; auto. left. now apply (app_inv_tail s1) in Ev.
Qed.
Lemma info_star : forall r i s c i' s' c', M r i s c i' s' c' ->
    r = Star true (Grp 1 (Cat (plus true word) (opt (ch 32)))) ->
    s = s' \/ exists w, s = w ++ s' /\ ends_word w.
Proof.
  induction 1; intros E; try discriminate; auto.
  inversion E; subst. right. apply info_body in H. destruct H as (w & -> & Hw).
  destruct (IHM2 eq_refl) as [->|(v & -> & a & x & Hx & Hv)].
  - eauto.
  - exists (w ++ v). rewrite <- app_assoc. split; auto. exists (w ++ a), x. split; auto.
    destruct Hv as [->| ->]; rewrite <- !app_assoc; auto.
Qed.

Lemma info_iff : forall l, match_string info_reg l = true <-> info_line l.
Proof.
  intros l. rewrite match_string_iff. unfold matches_somewhere, info_reg, info_line. cbn [cats]. split.
  - intros (w & s1 & i' & s' & c' & -> & H).
    apply M_cat_inv in H. destruct H as (i1 & s2 & c1 & H1 & H2).
    apply M_star_chr in H1. destruct H1 as (v & -> & -> & -> & _).
    apply M_cat_inv in H2. destruct H2 as (i1 & s3 & c1 & H1 & H2).
    apply M_str_inv in H2. destruct H2 as (-> & _ & _).
    assert (HW : exists u, s2 = u ++ lit ": " ++ s' /\ ends_word u).
    { apply M_cat_inv in H1. destruct H1 as (i2 & s3 & c2 & H1 & H2).
      apply info_body in H1. destruct H1 as (u & -> & Hu).
      apply info_star in H2; auto. destruct H2 as [->|(u' & -> & a & x & Hx & Hu')]; eauto.
      exists (u ++ u'). rewrite <- app_assoc. split; auto. exists (u ++ a), x. split; auto.
      destruct Hu' as [->| ->]; rewrite <- !app_assoc; auto. }
    destruct HW as (u & -> & a & x & Hx & Hu).
    exists (w ++ v ++ a), x, s'. split; auto.
    destruct Hu as [->| ->]; [left|right]; rewrite <- !app_assoc; reflexivity.
  - intros (a & c & b & Hc & Hl).
    assert (HB : exists s, l = a ++ s /\ exists i' c', M (Grp 1 (Cat (plus true word) (opt (ch 32)))) (length a) s [] i' (lit ": " ++ b) c').
    { destruct Hl as [->| ->].
      - exists ([c] ++ lit ": " ++ b). split; auto.
        eexists. eexists. apply M_grp_intro.
        apply M_Cat with (length a + length [c]) (lit ": " ++ b) [].
        + apply M_plus_intro; [simpl; now rewrite Hc|congruence].
        + apply M_AltR. constructor.
      - exists ([c; 32%N] ++ lit ": " ++ b). split; auto.
        eexists. eexists. apply M_grp_intro.
        apply M_Cat with (length a + length [c]) ([32%N] ++ lit ": " ++ b) [].
        + apply (M_plus_intro true is_word [c] (length a) ([32%N] ++ lit ": " ++ b)); [simpl; now rewrite Hc|congruence].
        + apply M_AltL. simpl length. replace (length a + 2) with (S (length a + 1)) by lia. apply M_ch_intro. }
    destruct HB as (s & -> & i' & c' & HM).
    exists a, s, (i' + 2), b, c'. split; auto.
    apply M_Cat with (length a) s []; [constructor|].
    apply M_Cat with i' (lit ": " ++ b) c'; [|apply (M_str_intro (lit ": "))].
    apply M_Cat with i' (lit ": " ++ b) c'; [exact HM|constructor].
Qed.

(** ** Grouping *)
Definition kind (l : gostring) : line_type :=
  if match_string info_reg l then LInfo else if match_string arrow_reg l then LArrow else LPlanName.
Definition start (prev k : line_type) : bool :=
  match k, prev with
  | LPlanName, _ => true
  | LArrow, LPlanName => false
  | LArrow, _ => true
  | LInfo, _ => false
  end.
Fixpoint regroup (cur : list gostring) (prev : line_type) (body : list gostring) : list (list gostring) :=
  match body with
  | [] => [cur]
  | l :: b => if start prev (kind l) then cur :: regroup [l] (kind l) b
              else regroup (cur ++ [l]) (kind l) b
  end.

Lemma regroup_nonempty : forall body cur prev, regroup cur prev body <> [].
Proof.
  induction body as [|l b IH]; intros cur prev; simpl; [congruence|].
  destruct (start prev (kind l)); [congruence|apply IH].
Qed.

Lemma flush_cur : forall groups cur, cur <> [] -> flush groups cur = groups ++ [cur].
Proof. intros groups [|x cur] H; [congruence|reflexivity]. Qed.
Lemma app_one_ne : forall {X} (l : list X) x, l ++ [x] <> [].
Proof. intros X [|y l] x; simpl; congruence. Qed.

Lemma group_loop_spec : forall body rest i groups cur prev,
    Forall (fun l => ~ summary_line l) body ->
    match rest with [] => True | l :: _ => summary_line l end ->
    cur <> [] ->
    group_loop (S i) (body ++ rest) groups cur prev =
    match rest with
    | [] => (groups ++ removelast (regroup cur prev body), (0, []))
    | _ => (groups ++ regroup cur prev body, (S i + length body, rest))
    end.
Proof.
  induction body as [|l b IH]; intros rest i groups cur prev HF HR Hne.
  - cbn [app]. destruct rest as [|r rest]; cbn [group_loop regroup removelast].
    + now rewrite app_nil_r.
    + apply summary_iff in HR. rewrite HR. rewrite flush_cur by auto.
      cbn [length]. now rewrite Nat.add_0_r.
  - inversion HF as [|? ? Hl HFb]; subst.
    assert (Es : match_string summary_reg l = false).
    { destruct (match_string summary_reg l) eqn:E; auto. apply summary_iff in E. tauto. }
    cbn [app group_loop]. rewrite Es. cbn [Nat.eqb]. cbv zeta.
    assert (Hone : [l] <> []) by congruence.
    assert (HA : forall k groups', group_loop (S (S i)) (b ++ rest) groups' [l] k =
        match rest with
        | [] => (groups' ++ removelast (regroup [l] k b), (0, []))
        | _ => (groups' ++ regroup [l] k b, (S (S i) + length b, rest)) end).
    { intros. apply IH; auto. }
    assert (HB : forall k groups', group_loop (S (S i)) (b ++ rest) groups' (cur ++ [l]) k =
        match rest with
        | [] => (groups' ++ removelast (regroup (cur ++ [l]) k b), (0, []))
        | _ => (groups' ++ regroup (cur ++ [l]) k b, (S (S i) + length b, rest)) end).
    { intros. apply IH; auto. apply app_one_ne. }
    assert (HN : forall k, removelast (cur :: regroup [l] k b) = cur :: removelast (regroup [l] k b)).
    { intros k. pose proof (regroup_nonempty b [l] k). destruct (regroup [l] k b); [congruence|reflexivity]. }
    assert (HL : S i + length (l :: b) = S (S i) + length b) by (simpl; lia).
    rewrite HL. cbn [regroup].
    unfold kind. destruct (match_string info_reg l), prev;
      [| | |destruct (match_string arrow_reg l)..];
      cbv beta iota zeta; cbn [start app]; rewrite ?(flush_cur groups cur) by auto; cbn [flush];
      rewrite ?HA, ?HB, ?HN, <- ?app_assoc; try reflexivity.
Qed.

Lemma concat_regroup : forall body cur prev, concat (regroup cur prev body) = cur ++ body.
Proof.
  induction body as [|l b IH]; intros cur prev; simpl.
  - reflexivity.
  - destruct (start prev (kind l)); simpl; rewrite IH; auto. now rewrite <- app_assoc.
Qed.
Lemma regroup_all : forall body cur prev, cur <> [] -> Forall (fun g => g <> []) (regroup cur prev body).
Proof.
  induction body as [|l b IH]; intros cur prev H; simpl.
  - constructor; auto.
  - destruct (start prev (kind l)); [constructor; auto; apply IH; congruence|].
    apply IH. apply app_one_ne.
Qed.

Definition before_kind (prev : line_type) (body : list gostring) (j : nat) : line_type :=
  match j with 0 => prev | S k => kind (nth k body []) end.

Lemma regroup_cuts : forall body cur prev p, cur <> [] ->
    (exists a b, regroup cur prev body = a ++ b /\ b <> [] /\ length (concat a) = p) <->
    (p = 0 \/ exists j, j < length body /\ p = length cur + j /\
                start (before_kind prev body j) (kind (nth j body [])) = true).
Proof.
  induction body as [|l b IH]; intros cur prev p Hc; cbn [regroup].
  - split.
    + intros (x & y & E & Hy & <-). destruct x as [|g x]; [left; reflexivity|].
      simpl in E. inversion E as [[E1 E2]]. destruct x, y; simpl in *; congruence.
    + intros [->|(j & Hj & _)]; [|simpl in Hj; lia]. exists [], [cur]. repeat split. congruence.
  - destruct (start prev (kind l)) eqn:Es.
    + split.
      * intros (x & y & E & Hy & <-). destruct x as [|g x]; [left; reflexivity|].
        simpl in E. inversion E as [[E1 E2]]. right.
        assert (HX : exists a0 b0, regroup [l] (kind l) b = a0 ++ b0 /\ b0 <> [] /\ length (concat a0) = length (concat x))
          by (exists x, y; auto).
        apply IH in HX; [|congruence]. destruct HX as [H0|(j & Hj & Hp & Hs)].
        -- exists 0. cbn [before_kind nth length]. split; [lia|]. split; auto.
           cbn [concat]. rewrite app_length. lia.
        -- exists (S j). cbn [nth length]. split; [lia|]. split.
           ++ cbn [concat]. rewrite app_length, Hp. simpl. lia.
           ++ destruct j; exact Hs.
      * intros [->|(j & Hj & -> & Hs)].
        -- exists [], (cur :: regroup [l] (kind l) b). repeat split. congruence.
        -- assert (HX : exists a0 b0, regroup [l] (kind l) b = a0 ++ b0 /\ b0 <> [] /\ length (concat a0) = j).
           { apply IH; [congruence|]. destruct j as [|j]; [left; auto|right].
             exists j. cbn [length] in Hj. split; [lia|]. split; [reflexivity|]. destruct j; exact Hs. }
           destruct HX as (x & y & E & Hy & Hx). exists (cur :: x), y. rewrite E. repeat split; auto.
           cbn [concat]. rewrite app_length. lia.
    + rewrite IH by apply app_one_ne. rewrite app_length. cbn [length]. split.
      * intros [->|(j & Hj & -> & Hs)]; [auto|]. right. exists (S j). split; [lia|]. split; [lia|].
        destruct j; exact Hs.
      * intros [->|(j & Hj & -> & Hs)]; [auto|]. right. destruct j as [|j].
        -- cbn [before_kind nth] in Hs. congruence.
        -- exists j. split; [lia|]. split; [lia|]. destruct j; exact Hs.
Qed.

Lemma kind_info : forall l, kind l = LInfo <-> info_line l.
Proof.
  intros l. unfold kind. rewrite <- info_iff. destruct (match_string info_reg l); [tauto|].
  destruct (match_string arrow_reg l); split; discriminate.
Qed.
Lemma kind_arrow : forall l, kind l = LArrow <-> child_line l.
Proof.
  intros l. unfold kind, child_line. rewrite <- info_iff, <- arrow_iff.
  destruct (match_string info_reg l); [split; [discriminate|intros [H _]; congruence]|].
  destruct (match_string arrow_reg l); split; try congruence.
  - intros _. split; congruence.
  - intros [_ H]; congruence.
Qed.
Lemma kind_name : forall l, kind l = LPlanName <-> name_line l.
Proof.
  intros l. unfold kind, name_line. rewrite <- info_iff, <- arrow_iff.
  destruct (match_string info_reg l); [split; [discriminate|intros [H _]; congruence]|].
  destruct (match_string arrow_reg l); split; try congruence.
  - intros [_ H]; congruence.
  - intros _. split; congruence.
Qed.
Lemma start_iff : forall p l, start p (kind l) = true <->
    name_line l \/ (child_line l /\ p <> LPlanName).
Proof.
  intros p l. rewrite <- kind_name, <- kind_arrow.
  destruct (kind l), p; simpl; split; intros H; auto; try congruence;
    try (right; split; congruence); destruct H as [H|[H1 H2]]; congruence.
Qed.

Lemma regroup_cut_into : forall l body, cut_into (l :: body) (regroup [l] LArrow body).
Proof.
  intros l body. split; [|split].
  - apply concat_regroup.
  - apply regroup_all. congruence.
  - intros i. rewrite regroup_cuts by congruence. unfold begins. cbn [length]. split.
    + intros (Hi & [->|[H|(H1 & H2)]]); [auto| |].
      * destruct i as [|j]; [auto|right]. exists j. cbn [nth] in H. split; [lia|]. split; [reflexivity|].
        apply start_iff. auto.
      * destruct i as [|j]; [auto|right]. exists j. cbn [nth] in H1. split; [lia|]. split; [reflexivity|].
        apply start_iff. right. split; auto. destruct j as [|j]; cbn [before_kind]; [congruence|].
        destruct H2 as [H2|H2]; [lia|]. simpl Nat.sub in H2. cbn [nth] in H2.
        rewrite kind_name. exact H2.
    + intros [->|(j & Hj & -> & Hs)]; [split; [lia|auto]|]. split; [simpl; lia|].
      right. cbn [length Nat.add nth]. apply start_iff in Hs. destruct Hs as [Hs|(H1 & H2)]; [auto|right].
      split; auto. destruct j as [|j]; [auto|right]. cbn [before_kind] in H2.
      simpl Nat.sub. cbn [nth]. now rewrite <- kind_name.
Qed.

Lemma group_lines_spec : forall lines body rest, summary_at lines body rest ->
    match body with
    | [] => group_lines lines = ([], [])
    | _ => exists groups, cut_into body groups /\
             group_lines lines = match rest with
                                 | [] => (removelast groups, [])
                                 | _ => (groups, join [nl] rest)
                                 end
    end.
Proof.
  intros lines body rest (-> & HF & HR). destruct body as [|l body].
  - cbn [app]. unfold group_lines. destruct rest as [|r rest]; [reflexivity|].
    cbn [group_loop]. apply summary_iff in HR. rewrite HR. reflexivity.
  - exists (regroup [l] LArrow body). split; [apply regroup_cut_into|].
    inversion HF as [|? ? Hl HFb]; subst.
    assert (Es : match_string summary_reg l = false).
    { destruct (match_string summary_reg l) eqn:E; auto. apply summary_iff in E. tauto. }
    unfold group_lines. cbn [app group_loop]. rewrite Es. cbn [Nat.eqb].
    rewrite group_loop_spec; auto; [|congruence].
    destruct rest; reflexivity.
Qed.

(** Every text is a plan followed by a summary or nothing. *)
Lemma summary_at_exists : forall lines, exists body rest, summary_at lines body rest.
Proof.
  induction lines as [|l lines (body & rest & -> & HF & HR)].
  - exists [], []. repeat split; auto.
  - destruct (match_string summary_reg l) eqn:E.
    + apply summary_iff in E. exists [], (l :: body ++ rest). repeat split; auto.
    + exists (l :: body), rest. repeat split; auto. constructor; auto.
      rewrite <- summary_iff. congruence.
Qed.

Definition open_shape (g : list gostring) (k : line_type) : Prop :=
  (k = LInfo /\ group_shape g) \/
  (k = LArrow /\ exists h mid, g = h :: mid /\ (mid = [] \/ exists m, mid = [m] /\ child_line m /\ name_line h)) \/
  (k = LPlanName /\ exists h, g = [h] /\ name_line h).
Lemma open_group : forall g k, open_shape g k -> group_shape g.
Proof.
  intros g k [[_ H]|[(_ & h & mid & -> & H)|(_ & h & -> & H)]]; auto.
  - exists h, mid, []. rewrite app_nil_r. auto.
  - exists h, [], []. auto.
Qed.
Lemma regroup_shape : forall body cur prev, open_shape cur prev ->
    Forall group_shape (regroup cur prev body).
Proof.
  induction body as [|l b IH]; intros cur prev H; cbn [regroup].
  - constructor; auto. eapply open_group; eauto.
  - destruct (start prev (kind l)) eqn:Es.
    + constructor; [eapply open_group; eauto|]. apply IH.
      destruct (kind l) eqn:Ek.
      * destruct prev; discriminate.
      * right; left. split; auto. exists l, []. auto.
      * right; right. split; auto. exists l. split; auto. now apply kind_name.
    + apply IH. destruct (kind l) eqn:Ek.
      * left. split; auto. apply open_group in H. destruct H as (h & mid & t & -> & H1 & H2).
        exists h, mid, (t ++ [l]). split; [simpl; now rewrite <- app_assoc|]. split; auto.
        apply Forall_app. split; auto. constructor; auto. now apply kind_info.
      * destruct prev; try discriminate.
        destruct H as [[H _]|[(H & _)|(_ & h & -> & H)]]; try discriminate.
        right; left. split; auto. exists h, [l]. split; auto. right. exists l. split; auto. split; auto.
        now apply kind_arrow.
      * destruct prev; discriminate.
Qed.
Lemma cut_into_fun : forall body g1 g2, cut_into body g1 -> cut_into body g2 -> g1 = g2.
Proof.
  intros body g1 g2 (C1 & N1 & B1) (C2 & N2 & B2).
  assert (HB : forall i, (exists a b, g1 = a ++ b /\ b <> [] /\ length (concat a) = i) <->
                         (exists a b, g2 = a ++ b /\ b <> [] /\ length (concat a) = i)).
  { intros i. rewrite <- B1, <- B2. tauto. }
  clear B1 B2. rewrite <- C2 in C1. clear C2 body. revert g2 C1 N2 HB.
  induction g1 as [|a g1 IH]; intros [|b g2] C N2 HB; auto.
  - simpl in C. inversion N2 as [|? ? Hb _]; subst. destruct b; simpl in C; congruence.
  - simpl in C. inversion N1 as [|? ? Ha _]; subst. destruct a; simpl in C; congruence.
  - inversion N1 as [|? ? Ha N1']; inversion N2 as [|? ? Hb N2']; subst.
    assert (HE : forall (x y : list gostring) gx gy, x <> [] -> y <> [] -> concat (x :: gx) = concat (y :: gy) ->
        Forall (fun g => g <> []) gx -> Forall (fun g => g <> []) gy ->
        (forall i, (exists a b, x :: gx = a ++ b /\ b <> [] /\ length (concat a) = i) ->
                   (exists a b, y :: gy = a ++ b /\ b <> [] /\ length (concat a) = i)) ->
        length y <= length x).
    { intros x y gx gy Hx Hy Hc Nx Ny H.
      assert (Hlen : length (concat (x :: gx)) = length (concat (y :: gy))) by (now rewrite Hc).
      cbn [concat] in Hlen. rewrite !app_length in Hlen.
      destruct gx as [|x2 gx].
      - simpl in Hlen. lia.
      - destruct (H (length x)) as (u & v & E & Hv & Hu).
        { exists [x], (x2 :: gx). simpl. rewrite app_nil_r. repeat split; congruence. }
        destruct u as [|u0 u]; [destruct x; simpl in Hu; congruence|].
        simpl in E. inversion E; subst u0. cbn [concat] in Hu. rewrite app_length in Hu. lia. }
    assert (Hlen : length a = length b).
    { apply Nat.le_antisymm.
      - apply (HE b a g2 g1); auto. intros i. apply HB.
      - apply (HE a b g1 g2); auto. intros i. apply HB. }
    simpl in C. assert (a = b /\ concat g1 = concat g2) as [-> C'].
    { clear -C Hlen. revert b Hlen C. induction a as [|x a IH]; intros [|y b] Hl C; simpl in *; try lia; auto.
      inversion C. destruct (IH b) as [-> ->]; auto. }
    f_equal. apply IH; auto. intros i. specialize (HB (length b + i)).
    assert (HS : forall g : list (list gostring), (exists u v, b :: g = u ++ v /\ v <> [] /\ length (concat u) = length b + i) <->
                        (exists u v, g = u ++ v /\ v <> [] /\ length (concat u) = i)).
    { intros g. split.
      - intros (u & v & E & Hv & Hu). destruct u as [|u0 u].
        + simpl in Hu. destruct b; simpl in Hu; [congruence|lia].
        + simpl in E. inversion E; subst. exists u, v. repeat split; auto.
          cbn [concat] in Hu. rewrite app_length in Hu. lia.
      - intros (u & v & -> & Hv & Hu). exists (b :: u), v. repeat split; auto.
        cbn [concat]. rewrite app_length. lia. }
    rewrite !HS in HB. exact HB.
Qed.
Lemma cut_into_shape : forall body groups, body <> [] -> cut_into body groups -> Forall group_shape groups.
Proof.
  intros [|l body] groups H HC; [congruence|].
  rewrite (cut_into_fun _ _ _ HC (regroup_cut_into l body)). apply regroup_shape.
  right; left. split; auto. exists l, []. auto.
Qed.
