From Coq Require Import String List NArith Bool Lia Arith.
From Verif Require Import Base Regex IndexText IndexTextSpec.
Import ListNotations.

(** ** The word-only check *)
Lemma is_word_iff : forall c, is_word c = true <-> word_char c.
Proof.
  intros c. unfold is_word, is_digit, is_upper, is_lower, word_char.
  rewrite !orb_true_iff, !andb_true_iff, !N.leb_le, N.eqb_eq. tauto.
Qed.

Lemma forallb_word_iff : forall s, forallb is_word s = true <-> Forall word_char s.
Proof.
  intros. rewrite forallb_forall, Forall_forall. split; intros H x Hx.
  - apply is_word_iff; auto.
  - apply is_word_iff; auto.
Qed.

Lemma M_star_chr : forall g p i s c i' s' c',
    M (Star g (Chr p)) i s c i' s' c' ->
    exists w, s = w ++ s' /\ i' = i + length w /\ c' = c /\ forallb p w = true.
Proof.
  intros g p i s c i' s' c' H. remember (Star g (Chr p)) as r eqn:Er.
  revert g p Er. induction H; intros g0 p0 Er; inversion Er; subst.
  - exists []; repeat split; auto; simpl; lia.
  - inversion H; subst. destruct (IHM2 _ _ eq_refl) as (w & -> & -> & -> & Hw).
    exists (x :: w). repeat split; auto.
    + simpl; lia.
    + simpl. match goal with Hp : p0 _ = true |- _ => rewrite Hp end. auto.
Qed.

Lemma M_star_chr_intro : forall g p w i s c,
    forallb p w = true -> M (Star g (Chr p)) i (w ++ s) c (i + length w) s c.
Proof.
  induction w as [|x w IH]; simpl; intros i s c H.
  - rewrite Nat.add_0_r. constructor.
  - apply andb_true_iff in H. destruct H.
    eapply M_More with (i1 := S i); [constructor; auto| lia|].
    rewrite Nat.add_succ_r, <- Nat.add_succ_l. auto.
Qed.

Lemma word_only_iff : forall s, match_string word_only_reg s = true <-> identifier s.
Proof.
  intros s. rewrite match_string_iff. unfold matches_somewhere, word_only_reg, identifier.
  split.
  - intros (w & s1 & i' & s' & c' & -> & H).
    repeat match goal with
           | H : M (Cat _ _) _ _ _ _ _ _ |- _ => inversion H; subst; clear H
           | H : M (plus _ _) _ _ _ _ _ _ |- _ => unfold plus in H
           | H : M Bot _ _ _ _ _ _ |- _ => inversion H; subst; clear H
           | H : M Eot _ _ _ _ _ _ |- _ => inversion H; subst; clear H
           | H : M word _ _ _ _ _ _ |- _ => unfold word in H; inversion H; subst; clear H
           | H : M (Star _ word) _ _ _ _ _ _ |- _ => apply M_star_chr in H;
               destruct H as (w1 & ? & ? & ? & Hw1); subst
           end.
    destruct w; [|simpl in *; lia]. simpl.
    rewrite app_nil_r. split; [congruence|].
    apply forallb_word_iff. simpl.
    match goal with Hp : is_word _ = true |- _ => rewrite Hp end. auto.
  - intros [Hne HF]. destruct s as [|x s]; [congruence|].
    apply forallb_word_iff in HF. simpl in HF. apply andb_true_iff in HF. destruct HF.
    exists [], (x :: s), (1 + length s), [], []. split; auto.
    eapply M_Cat; [constructor|]. eapply M_Cat.
    + eapply M_Cat; [constructor; auto|].
      rewrite <- (app_nil_r s) at 1. apply M_star_chr_intro. auto.
    + constructor.
Qed.

Lemma wordb_iff : forall s, wordb s = true <-> identifier s.
Proof.
  intros s. unfold wordb, identifier. destruct s.
  - split; [congruence|]. intros [H _]; congruence.
  - rewrite forallb_word_iff. split; [intros; split; auto; congruence|tauto].
Qed.

Lemma word_only_wordb : forall s, match_string word_only_reg s = wordb s.
Proof.
  intros. apply eq_true_iff_eq. rewrite word_only_iff, wordb_iff. tauto.
Qed.

(** ** SafeName *)
Definition safe_char (c : rune) : rune := if is_word c then c else 95%N.

Lemma replace_all_non_word : forall s f i, length s <= f ->
    replace_all_fuel f non_word_reg (lit "_") i s = map safe_char s.
Proof.
  induction s as [|x s IH]; intros f i Hf.
  - destruct f; reflexivity.
  - simpl in Hf. destruct f as [|f]; [lia|].
    cbn [replace_all_fuel]. unfold match_at, non_word_reg.
    rewrite mt_chr_cons. cbn [map].
    destruct (is_word x) eqn:E; cbn [negb].
    + fold non_word_reg. rewrite IH by lia. f_equal. unfold safe_char. now rewrite E.
    + cbn [m_text m_rest]. replace (S i - i) with 1 by lia. cbn [firstn].
      cbn [length]. fold non_word_reg. rewrite IH by lia. unfold safe_char at 2.
      rewrite E. reflexivity.
Qed.

Lemma safe_name_map : forall s, safe_name s = map safe_char s.
Proof. intros; unfold safe_name, replace_all; now apply replace_all_non_word. Qed.

Lemma safe_char_word : forall c, is_word (safe_char c) = true.
Proof. intros; unfold safe_char; destruct (is_word c) eqn:E; auto. Qed.

Lemma safe_name_words : forall s, Forall word_char (safe_name s).
Proof.
  intros. rewrite safe_name_map. apply Forall_forall. intros x Hx.
  apply in_map_iff in Hx. destruct Hx as (y & <- & _). apply is_word_iff, safe_char_word.
Qed.

Lemma safe_name_id : forall s, Forall word_char s -> safe_name s = s.
Proof.
  intros s H. rewrite safe_name_map. rewrite <- (map_id s) at 2.
  apply map_ext_in. intros a Ha. unfold safe_char.
  rewrite Forall_forall in H. apply H in Ha. apply is_word_iff in Ha. now rewrite Ha.
Qed.

Lemma safe_name_fix : forall s, safe_name s = s <-> Forall word_char s.
Proof.
  intros s. split.
  - intros <-. apply safe_name_words.
  - apply safe_name_id.
Qed.

Lemma safe_name_idem : forall s, safe_name (safe_name s) = safe_name s.
Proof. intros; apply safe_name_id, safe_name_words. Qed.

Lemma safe_name_length : forall s, length (safe_name s) = length s.
Proof. intros; rewrite safe_name_map; apply map_length. Qed.

Lemma is_safe_iff : forall it,
    is_safe it = true <->
    identifier (it_table it) /\ Forall (fun c => Forall word_char c) (it_cols it).
Proof.
  intros it. unfold is_safe. rewrite andb_true_iff, word_only_iff, forallb_forall, Forall_forall.
  split; intros [H1 H2]; split; auto; intros x Hx; specialize (H2 _ Hx).
  - apply seqb_eq in H2. symmetry in H2. now apply safe_name_fix.
  - apply seqb_eq. symmetry. now apply safe_name_fix.
Qed.

(** ** The index text expression *)

(** First colon at a position >= 1, followed by something, on one line. *)
Fixpoint colon_split (l : gostring) : option (gostring * gostring) :=
  match l with
  | [] => None
  | x :: l' => if N.eqb x 58 then Some ([], l')
               else match colon_split l' with
                    | Some (a, b) => Some (x :: a, b)
                    | None => None
                    end
  end.
(** The split used by the expression: the colon is searched from index 1 on. *)
Definition line_split (l : gostring) : option (gostring * gostring) :=
  match l with
  | [] => None
  | x :: l' => match colon_split l' with
               | Some (a, b) => match b with [] => None | _ => Some (x :: a, b) end
               | None => None
               end
  end.

Definition line_end (rest : gostring) : Prop :=
  match rest with [] => True | y :: _ => y = 10%N end.

Definition no_nl (l : gostring) : Prop := ~ In 10%N l.
Lemma no_nl_dot : forall l, no_nl l <-> forallb is_dot l = true.
Proof.
  induction l as [|x l IH]; unfold no_nl in *; simpl.
  - intuition.
  - rewrite andb_true_iff, <- IH. unfold is_dot. rewrite negb_true_iff, N.eqb_neq. intuition.
Qed.

Definition body3 : re := Grp 3 (Cat (plus false dot) (opt (Grp 4 (ch 43%N)))).

(** Where the first attempt of one iteration ends. *)
Definition step3 (i : nat) (x : rune) (l : gostring) (c : caps) : nat * gostring * caps :=
  match l with
  | y :: l2 => if N.eqb 43 y then (S (S i), l2, (3, [x; y]) :: (4, [y]) :: c)
               else (S i, l, (3, [x]) :: c)
  | [] => (S i, l, (3, [x]) :: c)
  end.

Lemma body3_once : forall x l rest i c R (K : @kont R) i1 l1 c1,
    no_nl (x :: l) -> line_end rest ->
    step3 i x l c = (i1, l1, c1) ->
    K i1 (l1 ++ rest) c1 <> None ->
    mt body3 i ((x :: l) ++ rest) c K = K i1 (l1 ++ rest) c1.
Proof.
  intros x l rest i c R K i1 l1 c1 Hnl Hend Hs HK.
  unfold body3. rewrite mt_grp, mt_cat. unfold plus. rewrite mt_cat. simpl app.
  unfold dot at 1. rewrite mt_chr_cons.
  assert (Hx : is_dot x = true).
  { unfold no_nl in Hnl. simpl in Hnl. unfold is_dot.
    rewrite negb_true_iff, N.eqb_neq. intros ->. tauto. }
  rewrite Hx. unfold dot. rewrite star_chr_lazy.
  match goal with |- lazy_run _ _ _ _ ?F = _ => set (KK := F) end.
  assert (E : KK (S i) (l ++ rest) c = K i1 (l1 ++ rest) c1).
  { unfold KK, opt. rewrite mt_alt, mt_grp.
    unfold step3 in Hs. destruct l as [|y l].
    - inversion Hs; subst. simpl app.
      assert (E1 : forall KK : @kont R, mt (ch 43) (S i) rest c KK = None).
      { intros KK'. destruct rest as [|z rest]; [reflexivity|].
        simpl in Hend. subst. reflexivity. }
      rewrite E1. unfold orelse. rewrite mt_eps.
      replace (S i - i) with 1 by lia. reflexivity.
    - simpl app. rewrite mt_ch. destruct (N.eqb_spec 43 y) as [<-|Hy].
      + inversion Hs; subst. replace (S (S i) - i) with 2 by lia.
        replace (S (S i) - S i) with 1 by lia. simpl firstn.
        unfold orelse. destruct (K _ _ _); [reflexivity|congruence].
      + inversion Hs; subst. unfold orelse. rewrite mt_eps.
        replace (S i - i) with 1 by lia. reflexivity. }
  destruct (l ++ rest) as [|z zs] eqn:El; cbn [lazy_run]; rewrite E;
    destruct (K i1 (l1 ++ rest) c1); simpl; congruence.
Qed.

(** The repeated column group always runs to the end of the line. *)
Lemma body3_star : forall n l rest i c R (k : @kont R),
    length l <= n -> no_nl l -> line_end rest ->
    (forall c', k (i + length l) rest c' <> None) ->
    exists c', (forall g, g <> 3 -> g <> 4 -> cap c' g = cap c g) /\
      mt (Star true body3) i (l ++ rest) c k = k (i + length l) rest c'.
Proof.
  induction n as [n IH] using lt_wf_ind. intros l rest i c R k Hn Hnl Hend Hk.
  destruct l as [|x l].
  - exists c. split; auto. rewrite star_unfold. cbv zeta. unfold body3 at 1.
    simpl app. rewrite mt_grp, mt_cat. unfold plus. rewrite mt_cat.
    simpl length. rewrite Nat.add_0_r.
    destruct rest as [|y rest]; [reflexivity|]. simpl in Hend. subst.
    unfold dot. rewrite mt_chr_cons. reflexivity.
  - rewrite star_unfold. cbv zeta.
    destruct (step3 i x l c) as [[i1 l1] c1] eqn:Hs.
    assert (Hs' : i < i1 /\ i1 + length l1 = i + length (x :: l) /\ length l1 < length (x :: l)
                  /\ no_nl l1
                  /\ (forall g, g <> 3 -> g <> 4 -> cap c1 g = cap c g)).
    { unfold step3 in Hs. unfold no_nl in *. destruct l as [|y l].
      - inversion Hs; subst. simpl. repeat split; auto; try lia.
        intros g H3 _. apply Nat.eqb_neq in H3. now rewrite H3.
      - destruct (N.eqb 43 y); inversion Hs; subst; simpl in *; repeat split; try lia;
          try tauto; intros g H3 H4; apply Nat.eqb_neq in H3, H4; rewrite H3; auto;
          now rewrite H4. }
    destruct Hs' as (Hi & Hlen & Hlt & Hnl1 & Hc1).
    destruct (IH (length l1) ltac:(lia) l1 rest i1 c1 R k) as (c2 & Hc2 & E2); auto.
    { intros. rewrite Hlen. auto. }
    exists c2. split.
    { intros. rewrite Hc2, Hc1; auto. }
    assert (Ei : (i1 <=? i) = false) by (apply Nat.leb_gt; lia).
    erewrite body3_once; eauto.
    + cbv beta. rewrite Ei, E2, Hlen. specialize (Hk c2).
      destruct (k (i + length (x :: l)) rest c2); [reflexivity|congruence].
    + cbv beta. rewrite Ei, E2, Hlen. auto.
Qed.

Lemma body3_plus : forall l rest i c R (k : @kont R),
    l <> [] -> no_nl l -> line_end rest ->
    (forall c', k (i + length l) rest c' <> None) ->
    exists c', (forall g, g <> 3 -> g <> 4 -> cap c' g = cap c g) /\
      mt (plus true body3) i (l ++ rest) c k = k (i + length l) rest c'.
Proof.
  intros l rest i c R k Hne Hnl Hend Hk. destruct l as [|x l]; [congruence|].
  unfold plus. rewrite mt_cat.
  destruct (step3 i x l c) as [[i1 l1] c1] eqn:Hs.
  assert (Hs' : i1 + length l1 = i + length (x :: l) /\ no_nl l1
                /\ (forall g, g <> 3 -> g <> 4 -> cap c1 g = cap c g)).
  { unfold step3 in Hs. unfold no_nl in *. destruct l as [|y l].
    - inversion Hs; subst. simpl. repeat split; auto; try lia.
      intros g H3 _. apply Nat.eqb_neq in H3. now rewrite H3.
    - destruct (N.eqb 43 y); inversion Hs; subst; simpl in *; repeat split; try lia;
        try tauto; intros g H3 H4; apply Nat.eqb_neq in H3, H4; rewrite H3; auto;
        now rewrite H4. }
  destruct Hs' as (Hlen & Hnl1 & Hc1).
  destruct (body3_star (length l1) l1 rest i1 c1 R k) as (c2 & Hc2 & E2); auto.
  { intros. rewrite Hlen. auto. }
  exists c2. split.
  { intros. rewrite Hc2, Hc1; auto. }
  erewrite body3_once; eauto; cbv beta; rewrite E2, Hlen; auto.
Qed.

Lemma colon_split_spec : forall l a b, colon_split l = Some (a, b) ->
    l = a ++ 58%N :: b /\ ~ In 58%N a.
Proof.
  induction l as [|x l IH]; simpl; intros a b H; [congruence|].
  destruct (N.eqb_spec x 58).
  - inversion H; subst. auto.
  - destruct (colon_split l) as [[a' b']|]; [|congruence]. inversion H; subst.
    destruct (IH _ _ eq_refl) as [-> Hn]. split; auto. simpl. intuition.
Qed.
Lemma colon_split_none : forall l, colon_split l = None <-> ~ In 58%N l.
Proof.
  induction l as [|x l IH]; simpl; [tauto|].
  destruct (N.eqb_spec x 58).
  - split; [congruence|]. intuition.
  - destruct (colon_split l) as [[a' b']|].
    + split; [congruence|]. intros H. exfalso. apply H. right.
      destruct IH as [_ IH]. destruct (in_dec N.eq_dec 58%N l); auto. now discriminate IH.
    + split; auto. intros _ [?|?]; auto. apply IH; auto.
Qed.
Lemma colon_split_app : forall a b, ~ In 58%N a -> colon_split (a ++ 58%N :: b) = Some (a, b).
Proof.
  induction a as [|x a IH]; simpl; intros b H; auto.
  destruct (N.eqb_spec x 58); [subst; tauto|]. rewrite IH; auto.
Qed.

(** Matching at the start of a line [l] with the remaining text [rest]. *)
Lemma match_at_line : forall l rest i, no_nl l -> line_end rest ->
    match line_split l with
    | Some (a, b) =>
        exists m, match_at index_target_reg i (l ++ rest) = Some m /\
                  capd (m_caps m) 1 = a /\ capd (m_caps m) 2 = b /\ m_rest m = rest
    | None => match_at index_target_reg i (l ++ rest) = None
    end.
Proof.
  intros l rest i Hnl Hend.
  destruct l as [|x l].
  { simpl. destruct rest as [|y rest]; [reflexivity|]. simpl in Hend; subst. reflexivity. }
  assert (Hx : is_dot x = true).
  { unfold no_nl in Hnl. simpl in Hnl. unfold is_dot.
    rewrite negb_true_iff, N.eqb_neq. intros ->. tauto. }
  assert (Hnl' : no_nl l) by (unfold no_nl in *; simpl in Hnl; tauto).
  eassert (HE : match_at index_target_reg i ((x :: l) ++ rest) =
                lazy_run is_dot (S i) (l ++ rest) [] _).
  { unfold match_at, index_target_reg. rewrite mt_cat, mt_grp. unfold plus at 1.
    rewrite mt_cat. simpl app. unfold dot at 1. rewrite mt_chr_cons, Hx.
    unfold dot at 1. rewrite star_chr_lazy. reflexivity. }
  rewrite HE. clear HE.
  set (k0 := fun (i' : nat) (s' : gostring) (c : caps) =>
               Some {| m_start := i; m_text := firstn (i' - i) (x :: l ++ rest);
                       m_caps := c; m_rest := s' |}).
  match goal with |- context [lazy_run is_dot (S i) (l ++ rest) [] ?F] => set (K := F) end.
  (* the continuation after [.+?] *)
  assert (HKnot : forall i' y s' c', y <> 58%N -> K i' (y :: s') c' = None).
  { intros. unfold K. rewrite mt_cat, mt_ch.
    destruct (N.eqb_spec 58 y); congruence. }
  assert (HKnil : forall i' c', K i' [] c' = None) by reflexivity.
  assert (HKend : forall i' c', K i' rest c' = None).
  { intros. destruct rest as [|y rest]; [apply HKnil|].
    simpl in Hend. subst. apply HKnot. lia. }
  assert (HKcolon_end : forall i' c', K i' (58%N :: rest) c' = None).
  { intros. unfold K. rewrite mt_cat, mt_ch. simpl N.eqb. cbv iota.
    rewrite mt_grp. unfold plus at 1. rewrite mt_cat, mt_grp, mt_cat. unfold plus.
    rewrite mt_cat. unfold dot at 1.
    destruct rest as [|y rest]; [reflexivity|]. simpl in Hend; subst.
    rewrite mt_chr_cons. reflexivity. }
  unfold line_split.
  destruct (colon_split l) as [[a b]|] eqn:Ec.
  - apply colon_split_spec in Ec. destruct Ec as [El Hna].
    assert (Hfail : forall w1 w2, a = w1 ++ w2 -> w2 <> [] ->
              forall i' c', K i' ((w2 ++ 58%N :: b) ++ rest) c' = None).
    { intros w1 w2 Ea Hw2 i' c'. destruct w2 as [|y w2]; [congruence|].
      simpl. apply HKnot. intros ->. apply Hna. rewrite Ea. apply in_or_app; simpl; auto. }
    assert (Hda : forallb is_dot a = true).
    { apply no_nl_dot. unfold no_nl in *. rewrite El in Hnl'.
      intros HI. apply Hnl'. apply in_or_app; auto. }
    destruct b as [|y b].
    + (* nothing after the colon *)
      apply lazy_run_none. intros w r Hwr Hw.
      subst l. rewrite <- app_assoc in Hwr.
      (* w is a prefix of (a ++ : ++ rest) *)
      assert (Hcase : (exists w2, a = w ++ w2 /\ r = w2 ++ [58%N] ++ rest) \/
                      (exists w2, w = a ++ [58%N] ++ w2 /\ rest = w2 ++ r)).
      { assert (HL := Hwr). simpl in HL.
        destruct (Nat.le_gt_cases (length w) (length a)) as [Hle|Hgt].
        - left. exists (skipn (length w) a).
          assert (Hw' : w = firstn (length w) a).
          { apply (f_equal (firstn (length w))) in Hwr.
            rewrite firstn_app in Hwr. replace (length w - length a) with 0 in Hwr by lia.
            rewrite firstn_O, app_nil_r in Hwr.
            rewrite firstn_app, Nat.sub_diag, firstn_O, app_nil_r, firstn_all in Hwr. auto. }
          split.
          + rewrite Hw' at 1. symmetry. apply firstn_skipn.
          + apply (f_equal (skipn (length w))) in Hwr.
            rewrite !skipn_app, Nat.sub_diag, skipn_all in Hwr. simpl in Hwr.
            replace (length w - length a) with 0 in Hwr by lia. simpl in Hwr. auto.
        - right. exists (skipn (length a + 1) w).
          apply (f_equal (fun z => (firstn (length a + 1) z, skipn (length a + 1) z))) in HL.
          rewrite !firstn_app, !skipn_app in HL.
          replace (length a + 1 - length w) with 0 in HL by lia.
          replace (length a + 1 - length a) with 1 in HL by lia.
          rewrite firstn_all2 in HL by lia. rewrite skipn_all2 with (l := a) in HL by lia.
          simpl in HL. rewrite app_nil_r in HL. inversion HL as [[HL1 HL2]].
          split; auto. rewrite <- (firstn_skipn (length a + 1) w) at 1.
          rewrite <- HL1, <- app_assoc. reflexivity. }
      destruct Hcase as [(w2 & Ea & ->)|(w2 & -> & Er)].
      * destruct w2 as [|z w2].
        -- simpl. apply HKcolon_end.
        -- simpl. apply HKnot. intros ->. apply Hna. rewrite Ea. apply in_or_app; simpl; auto.
      * destruct rest as [|z rest].
        -- symmetry in Er. apply app_eq_nil in Er. destruct Er; subst. apply HKnil.
        -- simpl in Hend. subst z. destruct w2 as [|z w2].
           ++ simpl in Er. subst r. apply HKnot. lia.
           ++ simpl in Er. inversion Er; subst. rewrite forallb_app in Hw.
              apply andb_true_iff in Hw. destruct Hw as [_ Hw]. simpl in Hw. discriminate.
    + assert (Hnb : no_nl (y :: b)).
      { unfold no_nl in *. rewrite El in Hnl'. intros HI. apply Hnl'.
        apply in_or_app. right. right. auto. }
      set (cc := ((1, x :: a) :: nil) : caps).
      set (KG := fun (i' : nat) (s' : gostring) (c' : caps) =>
                   k0 i' s' ((2, firstn (i' - S (S i + length a)) ((y :: b) ++ rest)) :: c')).
      destruct (body3_plus (y :: b) rest (S (S i + length a)) cc _ KG) as (c2 & Hc2 & E2);
        auto; [congruence|intros; unfold KG, k0; congruence|].
      assert (EK : K (S i + length a) ((58%N :: y :: b) ++ rest) [] =
                   KG (S (S i + length a) + length (y :: b)) rest c2).
      { unfold K. rewrite mt_cat. simpl app. rewrite mt_ch. rewrite N.eqb_refl, mt_grp.
        replace (firstn (S i + length a - i) (x :: l ++ rest)) with (x :: a).
        - exact E2.
        - replace (S i + length a - i) with (S (length a)) by lia. simpl. f_equal.
          subst l. rewrite <- app_assoc, firstn_app, Nat.sub_diag, firstn_O, app_nil_r.
          symmetry. apply firstn_all. }
      assert (HEL : l ++ rest = a ++ (58%N :: y :: b) ++ rest)
        by (rewrite El, <- app_assoc; reflexivity).
      assert (EL : lazy_run is_dot (S i) (a ++ (58%N :: y :: b) ++ rest) [] K =
                   KG (S (S i + length a) + length (y :: b)) rest c2).
      { destruct (KG (S (S i + length a) + length (y :: b)) rest c2) as [mm|] eqn:EKG;
          [|unfold KG, k0 in EKG; discriminate].
        eapply lazy_run_first; auto.
        intros w1 w2 Ea Hw2. specialize (Hfail w1 w2 Ea Hw2).
        rewrite <- app_assoc in Hfail. apply Hfail. }
      rewrite HEL, EL. unfold KG, k0. eexists. split; [reflexivity|].
      cbn [m_caps m_rest]. repeat split.
      * unfold capd. simpl cap. rewrite Hc2 by lia. reflexivity.
      * unfold capd. cbn [cap Nat.eqb].
        replace (S (S i + length a) + length (y :: b) - S (S i + length a))
          with (length (y :: b)) by lia.
        rewrite firstn_app, Nat.sub_diag, firstn_O, app_nil_r.
        apply firstn_all.
  - (* no colon *)
    apply colon_split_none in Ec.
    apply lazy_run_none. intros w r Hwr Hw.
    destruct r as [|z r]; [apply HKnil|].
    destruct (N.eq_dec z 58) as [->|Hz]; [|apply HKnot; auto].
    exfalso.
    (* the colon would have to be in the line, or the run crosses the line end *)
    destruct (Nat.le_gt_cases (length l) (length w)) as [Hle|Hgt].
    + assert (Hw' : exists w2, w = l ++ w2 /\ rest = w2 ++ 58%N :: r).
      { exists (skipn (length l) w).
        apply (f_equal (fun z => (firstn (length l) z, skipn (length l) z))) in Hwr.
        rewrite !firstn_app, !skipn_app, Nat.sub_diag, firstn_all, skipn_all in Hwr.
        replace (length l - length w) with 0 in Hwr by lia. simpl in Hwr.
        rewrite !app_nil_r in Hwr. inversion Hwr as [[H1 H2]]. split; auto.
        rewrite H1 at 1. symmetry; apply firstn_skipn. }
      destruct Hw' as (w2 & -> & Er). destruct rest as [|q rest]; [destruct w2; discriminate|].
      simpl in Hend. subst q. destruct w2 as [|q w2].
      * simpl in Er. inversion Er.
      * simpl in Er. inversion Er; subst. rewrite forallb_app in Hw.
        apply andb_true_iff in Hw. destruct Hw as [_ Hw]. simpl in Hw. discriminate.
    + apply Ec. apply (f_equal (fun z => nth_error z (length w))) in Hwr.
      rewrite nth_error_app1 in Hwr by lia. rewrite nth_error_app2 in Hwr by lia.
      rewrite Nat.sub_diag in Hwr. simpl in Hwr. eapply nth_error_In; eauto.
Qed.

Lemma line_split_some : forall l a b, line_split l = Some (a, b) ->
    l = a ++ 58%N :: b /\ a <> [] /\ b <> [].
Proof.
  intros [|x l] a b H; simpl in H; [congruence|].
  destruct (colon_split l) as [[a' b']|] eqn:E; [|congruence].
  apply colon_split_spec in E. destruct E as [-> _].
  destruct b' as [|y b']; [congruence|]. inversion H; subst.
  repeat split; congruence.
Qed.

Lemma line_split_none : forall l, line_split l = None <-> ~ has_inner_colon l.
Proof.
  intros l. split.
  - intros H (a & b & Ha & Hb & ->). destruct a as [|x a]; [congruence|]. simpl in H.
    destruct (colon_split (a ++ 58%N :: b)) as [[a' b']|] eqn:E.
    + apply colon_split_spec in E. destruct E as [E Hn].
      destruct b' as [|z b']; [|congruence].
      (* the first colon is the last character, but another colon has something after it *)
      assert (HL : In 58%N a' \/ b = []).
      { clear H Ha. revert a' E Hn. induction a as [|y a IH]; intros a' E Hn.
        - destruct a' as [|z a']; simpl in E.
          + inversion E. auto.
          + inversion E; subst. left; left; auto.
        - destruct a' as [|z a']; simpl in E.
          + inversion E. destruct a; discriminate.
          + inversion E; subst. destruct (IH a') as [HH|HH]; auto.
            * intros HI; apply Hn; right; auto.
            * left; right; auto. }
      destruct HL; auto.
    + apply colon_split_none in E. apply E. apply in_or_app; right; left; auto.
  - intros H. destruct (line_split l) as [[a b]|] eqn:E; auto.
    apply line_split_some in E. destruct E as (-> & Ha & Hb). exfalso. apply H.
    exists a, b. auto.
Qed.

Lemma line_split_suffix : forall w l, line_split (w ++ l) = None -> line_split l = None.
Proof.
  intros w l. rewrite !line_split_none. intros H (a & b & Ha & Hb & ->). apply H.
  exists (w ++ a), b. rewrite <- app_assoc. repeat split; auto.
  destruct w; simpl; auto; congruence.
Qed.

Lemma line_split_word : forall l a b, line_split l = Some (a, b) -> wordb a = true ->
    forall a' b', l = a' ++ 58%N :: b' -> Forall word_char a' -> a' = a /\ b' = b.
Proof.
  intros [|x l] a b H Hw a' b' E Ha'; simpl in H; [congruence|].
  destruct (colon_split l) as [[a1 b1]|] eqn:Ec; [|congruence].
  apply colon_split_spec in Ec. destruct Ec as [-> Hn].
  destruct b1 as [|y b1]; [congruence|]. inversion H; subst; clear H.
  destruct a' as [|z a'].
  - simpl in E. inversion E; subst. simpl in Hw. discriminate.
  - simpl in E. inversion E; subst. clear E. inversion Ha'; subst.
    assert (Hn' : ~ In 58%N a').
    { intros HI. rewrite Forall_forall in H3. apply H3 in HI.
      unfold word_char in HI. lia. }
    clear -H1 Hn Hn'. assert (HH : a1 = a' /\ y :: b1 = b').
    { revert a' Hn' H1. induction a1 as [|q a1 IH]; intros a' Hn' E.
      - destruct a' as [|r a']; simpl in E; inversion E; subst; auto.
        exfalso; apply Hn'; left; auto.
      - destruct a' as [|r a']; simpl in E; inversion E; subst.
        + exfalso; apply Hn; left; auto.
        + destruct (IH ltac:(simpl in Hn; tauto) a' ltac:(simpl in Hn'; tauto)); auto.
          subst; auto. }
    destruct HH; subst; auto.
Qed.

Fixpoint first_split (ls : list gostring) : option (gostring * gostring) :=
  match ls with
  | [] => None
  | l :: ls' => match line_split l with Some x => Some x | None => first_split ls' end
  end.

Lemma find_from_app_none : forall r w s i,
    (forall w1 w2, w = w1 ++ w2 -> w2 <> [] -> match_at r (i + length w1) (w2 ++ s) = None) ->
    find_from r i (w ++ s) = find_from r (i + length w) s.
Proof.
  induction w as [|y w IH]; simpl; intros s i H.
  - now rewrite Nat.add_0_r.
  - pose proof (H [] (y :: w) eq_refl ltac:(congruence)) as H0. simpl in H0.
    rewrite Nat.add_0_r in H0. rewrite H0, IH.
    + now rewrite Nat.add_succ_comm.
    + intros w1 w2 -> Hne. specialize (H (y :: w1) w2 eq_refl Hne). simpl in H.
      now rewrite Nat.add_succ_comm.
Qed.

Lemma find_lines : forall ls i, ls <> [] -> Forall no_nl ls ->
    match first_split ls with
    | Some (a, b) =>
        exists m, find_from index_target_reg i (join [10%N] ls) = Some m /\
                  capd (m_caps m) 1 = a /\ capd (m_caps m) 2 = b
    | None => find_from index_target_reg i (join [10%N] ls) = None
    end.
Proof.
  induction ls as [|l ls IH]; intros i Hne HF; [congruence|].
  inversion HF as [|? ? Hl HF']; subst. simpl first_split.
  set (rest := match ls with [] => [] | _ => 10%N :: join [10%N] ls end).
  assert (EJ : join [10%N] (l :: ls) = l ++ rest).
  { unfold rest. destruct ls; simpl; auto. now rewrite app_nil_r. }
  assert (Hend : line_end rest) by (unfold rest; destruct ls; simpl; auto).
  rewrite EJ.
  pose proof (match_at_line l rest i Hl Hend) as HM.
  destruct (line_split l) as [[a b]|] eqn:El.
  - destruct HM as (m & Hm & H1 & H2 & _). exists m. split; auto.
    destruct (l ++ rest); cbn [find_from]; now rewrite Hm.
  - assert (HN : forall w1 w2, l = w1 ++ w2 ->
              match_at index_target_reg (i + length w1) (w2 ++ rest) = None).
    { intros w1 w2 Ew. assert (Hw2 : no_nl w2).
      { unfold no_nl in *. intros HI. apply Hl. rewrite Ew. apply in_or_app; auto. }
      pose proof (match_at_line w2 rest (i + length w1) Hw2 Hend) as HM2.
      rewrite Ew in El. apply line_split_suffix in El. rewrite El in HM2. exact HM2. }
    rewrite find_from_app_none by (intros; apply HN; auto).
    pose proof (HN l [] ltac:(now rewrite app_nil_r)) as HN0. simpl in HN0.
    destruct ls as [|l2 ls].
    + subst rest. cbn [find_from]. rewrite HN0. reflexivity.
    + subst rest. cbn [find_from]. rewrite HN0.
      apply IH; auto. congruence.
Qed.

Lemma new_index_columns_spec : forall cs,
    (forallb wordb cs = true /\ new_index_columns cs = Ok cs) \/
    (forallb wordb cs = false /\ exists m, new_index_columns cs = Err m).
Proof.
  induction cs as [|c cs IH]; simpl; auto.
  unfold new_index_column. rewrite word_only_wordb.
  destruct (wordb c); simpl.
  - destruct IH as [[H1 H2]|[H1 [m H2]]]; rewrite H1, H2; simpl; eauto.
  - right; eauto.
Qed.

Lemma parse_lines : forall text,
    match first_split (split 10%N text) with
    | Some (a, b) =>
        if (wordb a && forallb wordb (split 43%N b))%bool
        then new_index_target_from_text text = Ok (mk_it a (split 43%N b))
        else exists m, new_index_target_from_text text = Err m
    | None => exists m, new_index_target_from_text text = Err m
    end.
Proof.
  intros text.
  pose proof (find_lines (split 10%N text) 0 (split_nonempty _ _) (split_no_sep _ _)) as H.
  rewrite join_split in H. unfold new_index_target_from_text, find.
  destruct (first_split (split 10%N text)) as [[a b]|].
  - destruct H as (m & -> & -> & ->). rewrite word_only_wordb.
    destruct (wordb a); simpl; eauto.
    destruct (new_index_columns_spec (split 43%N b)) as [[H1 H2]|[H1 [e H2]]];
      rewrite H1, H2; simpl; eauto.
  - rewrite H. eauto.
Qed.

(** ** Statements in terms of the specification *)
Lemma col_list_iff : forall cs text,
    col_list text cs <-> cs <> [] /\ Forall identifier cs /\ text = join [43%N] cs.
Proof.
  induction cs as [|c cs IH]; intros text; split.
  - intros H; inversion H.
  - intros (H & _); congruence.
  - intros H; inversion H; subst.
    + repeat split; auto; congruence.
    + apply IH in H4. destruct H4 as (Hne & HF & ->).
      repeat split; auto; try congruence.
      destruct cs; [congruence|]. reflexivity.
  - intros (_ & HF & ->). inversion HF; subst. destruct cs as [|c2 cs].
    + simpl. constructor; auto.
    + change (join [43%N] (c :: c2 :: cs)) with (c ++ [43%N] ++ join [43%N] (c2 :: cs)).
      constructor; auto. apply IH. repeat split; auto; congruence.
Qed.

Lemma forallb_wordb_iff : forall cs, forallb wordb cs = true <-> Forall identifier cs.
Proof.
  intros. rewrite forallb_forall, Forall_forall.
  split; intros H x Hx; apply wordb_iff; auto.
Qed.

Lemma identifier_no_sep : forall s c, identifier s -> ~ word_char c -> ~ In c s.
Proof. intros s c [_ HF] Hc HI. rewrite Forall_forall in HF. auto. Qed.

Lemma not_word_plus : ~ word_char 43%N. Proof. unfold word_char; lia. Qed.
Lemma not_word_colon : ~ word_char 58%N. Proof. unfold word_char; lia. Qed.
Lemma not_word_nl : ~ word_char 10%N. Proof. unfold word_char; lia. Qed.

(** A line is accepted as target iff it is in the intended syntax. *)
Lemma line_accept_iff : forall l t cs,
    (exists a b, line_split l = Some (a, b) /\ wordb a = true /\ forallb wordb (split 43%N b) = true
                 /\ t = a /\ cs = split 43%N b)
    <-> index_text l t cs.
Proof.
  intros l t cs. split.
  - intros (a & b & H1 & H2 & H3 & -> & ->).
    apply line_split_some in H1. destruct H1 as (-> & _ & _).
    split; [now apply wordb_iff|]. exists b. split; auto.
    apply col_list_iff. split; [apply split_nonempty|]. split.
    + now apply forallb_wordb_iff.
    + now rewrite join_split.
  - intros (Ht & cp & -> & Hc). apply col_list_iff in Hc. destruct Hc as (Hne & HF & ->).
    exists t, (join [43%N] cs).
    assert (Esp : split 43%N (join [43%N] cs) = cs).
    { apply split_join; auto. eapply Forall_impl; [|exact HF].
      intros x Hx. apply identifier_no_sep; auto. apply not_word_plus. }
    rewrite Esp. repeat split; auto.
    + destruct t as [|x t]; [destruct Ht; congruence|]. simpl.
      rewrite colon_split_app.
      * destruct (join [43%N] cs) as [|y ys] eqn:Ej; auto.
        exfalso. destruct cs as [|c cs]; [congruence|]. inversion HF; subst.
        destruct H1 as [Hc _]. destruct cs; simpl in Ej.
        -- congruence.
        -- destruct c; [congruence|discriminate].
      * intros HI. apply (identifier_no_sep _ 58%N Ht not_word_colon). right; auto.
    + now apply wordb_iff.
    + now apply forallb_wordb_iff.
Qed.

Lemma lines_of_iff : forall ls text,
    lines_of text ls <-> ls = split 10%N text.
Proof.
  intros ls text. split.
  - induction 1.
    + symmetry. now apply split_none.
    + subst. symmetry. now apply split_app.
  - intros ->. induction text as [|c text IH]; simpl.
    + apply lines_last. unfold single_line; auto.
    + destruct (N.eqb_spec c 10).
      * subst. change (10%N :: text) with ([] ++ [10%N] ++ text).
        apply lines_more; auto. unfold single_line; auto.
      * inversion IH; subst.
        -- apply lines_last. unfold single_line in *; simpl. intuition.
        -- change (l ++ [10%N] ++ rest) with (l ++ 10%N :: rest). rewrite <- H.
           apply (lines_more (c :: l) rest); [unfold single_line in *; simpl; intuition|auto].
Qed.

Lemma first_split_some_iff : forall ls a b,
    first_split ls = Some (a, b) <->
    exists before line after, ls = before ++ line :: after /\
      Forall (fun l => ~ has_inner_colon l) before /\ line_split line = Some (a, b).
Proof.
  induction ls as [|l ls IH]; intros a b; simpl.
  - split; [congruence|]. intros ([|? ?] & ? & ? & H & _); discriminate.
  - destruct (line_split l) as [[a' b']|] eqn:El.
    + split.
      * intros H; inversion H; subst. exists [], l, ls. auto.
      * intros ([|q before] & line & after & H & HF & Hl); inversion H; subst.
        -- congruence.
        -- inversion HF; subst. apply line_split_none in H2. congruence.
    + rewrite IH. split.
      * intros (before & line & after & -> & HF & Hl).
        exists (l :: before), line, after. repeat split; auto. constructor; auto.
        now apply line_split_none.
      * intros ([|q before] & line & after & H & HF & Hl); inversion H; subst.
        -- congruence.
        -- inversion HF; subst. exists before, line, after. auto.
Qed.

(** Complete characterisation of acceptance. *)
Lemma parse_iff : forall text t cs,
    new_index_target_from_text text = Ok (mk_it t cs) <->
    exists ls before line after,
      lines_of text ls /\ ls = before ++ line :: after /\
      Forall (fun l => ~ has_inner_colon l) before /\ index_text line t cs.
Proof.
  intros text t cs. pose proof (parse_lines text) as H.
  split.
  - intros HP. destruct (first_split (split 10%N text)) as [[a b]|] eqn:Ef.
    + destruct (wordb a && forallb wordb (split 43%N b))%bool eqn:Ew.
      * rewrite H in HP. inversion HP; subst.
        apply first_split_some_iff in Ef. destruct Ef as (bf & line & af & Es & HF & Hl).
        exists (split 10%N text), bf, line, af.
        apply andb_true_iff in Ew. destruct Ew.
        split; [now apply lines_of_iff|]. split; [auto|]. split; [auto|].
        apply line_accept_iff. exists t, b. auto.
      * destruct H as [m H]. congruence.
    + destruct H as [m H]. congruence.
  - intros (ls & before & line & after & HL & -> & HF & HI).
    apply lines_of_iff in HL. apply line_accept_iff in HI.
    destruct HI as (a & b & H1 & H2 & H3 & -> & ->).
    assert (Ef : first_split (split 10%N text) = Some (a, b)).
    { apply first_split_some_iff. exists before, line, after. auto. }
    rewrite Ef, H2, H3 in H. exact H.
Qed.

Lemma parse_total : forall text,
    (exists it, new_index_target_from_text text = Ok it) \/
    (exists m, new_index_target_from_text text = Err m).
Proof.
  intros. pose proof (parse_lines text) as H.
  destruct (first_split _) as [[a b]|]; [|right; auto].
  destruct (_ && _)%bool; [left; eauto|right; auto].
Qed.

Lemma index_text_single_line : forall l t cs, index_text l t cs -> single_line l.
Proof.
  intros l t cs (Ht & cp & -> & Hc). apply col_list_iff in Hc. destruct Hc as (_ & HF & ->).
  unfold single_line. rewrite in_app_iff. simpl. intros [H|[H|H]].
  - apply (identifier_no_sep _ _ Ht not_word_nl H).
  - lia.
  - clear Ht. induction cs as [|c cs IH]; simpl in H; auto.
    inversion HF; subst. destruct cs as [|c2 cs].
    + apply (identifier_no_sep _ _ H2 not_word_nl H).
    + apply in_app_iff in H. destruct H as [H|[H|H]].
      * apply (identifier_no_sep _ _ H2 not_word_nl H).
      * lia.
      * auto.
Qed.

Lemma parse_single_line_iff : forall text it, single_line text ->
    (new_index_target_from_text text = Ok it <-> index_text text (it_table it) (it_cols it)).
Proof.
  intros text [t cs] Hs. rewrite parse_iff. simpl. split.
  - intros (ls & before & line & after & HL & E & HF & HI).
    apply lines_of_iff in HL. rewrite split_none in HL by exact Hs. subst ls.
    destruct before as [|q before]; [|destruct before; discriminate].
    simpl in E. inversion E; subst. auto.
  - intros HI. exists [text], [], text, []. split; [now constructor|auto].
Qed.

Lemma lines_of_occurs : forall text ls l, lines_of text ls -> In l ls -> occurs_in l text.
Proof.
  induction 1; simpl; intros HI.
  - destruct HI as [<-|[]]. exists [], []. now rewrite app_nil_r.
  - destruct HI as [<-|HI].
    + exists [], ([10%N] ++ rest). auto.
    + destruct (IHlines_of HI) as (a & b & ->). exists (l0 ++ [10%N] ++ a), b.
      now rewrite <- !app_assoc.
Qed.

Lemma parse_sound : forall text it,
    new_index_target_from_text text = Ok it ->
    identifier (it_table it) /\ it_cols it <> [] /\ Forall identifier (it_cols it) /\
    exists line, occurs_in line text /\ index_text line (it_table it) (it_cols it).
Proof.
  intros text [t cs] H. apply parse_iff in H.
  destruct H as (ls & before & line & after & HL & -> & HF & HI). simpl.
  pose proof HI as (Ht & cp & _ & Hc). apply col_list_iff in Hc. destruct Hc as (Hne & HFc & _).
  split; [auto|]. split; [auto|]. split; [auto|]. exists line. split; auto.
  eapply lines_of_occurs; eauto. apply in_or_app; right; left; auto.
Qed.

Lemma roundtrip : forall it, identifier (it_table it) -> it_cols it <> [] ->
    Forall identifier (it_cols it) ->
    new_index_target_from_text (to_gr_index_option it) = Ok it.
Proof.
  intros it Ht Hne HF.
  assert (HI : index_text (to_gr_index_option it) (it_table it) (it_cols it)).
  { split; auto. exists (join [43%N] (it_cols it)). split; [reflexivity|].
    apply col_list_iff. auto. }
  apply parse_single_line_iff; auto. eapply index_text_single_line; eauto.
Qed.

Lemma parse_texts_iff : forall texts its,
    new_index_targets_from_texts texts = Ok its <->
    Forall2 (fun t it => new_index_target_from_text t = Ok it) texts its.
Proof.
  induction texts as [|t ts IH]; intros its; simpl.
  - split; [intros H; inversion H; constructor|intros H; inversion H; auto].
  - destruct (new_index_target_from_text t) as [it|m|] eqn:E; simpl.
    + destruct (new_index_targets_from_texts ts) as [its'|m|] eqn:E'; simpl.
      * split.
        -- intros H; inversion H; subst. constructor; auto. now apply IH.
        -- intros H; inversion H; subst. rewrite E in H2; inversion H2; subst.
           apply IH in H4. inversion H4; auto.
      * split; [congruence|]. intros H; inversion H; subst. apply IH in H4. congruence.
      * split; [congruence|]. intros H; inversion H; subst. apply IH in H4. congruence.
    + split; [congruence|]. intros H; inversion H; subst. congruence.
    + split; [congruence|]. intros H; inversion H; subst. congruence.
Qed.
