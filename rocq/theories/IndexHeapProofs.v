From Coq Require Import String List NArith Bool Lia Arith Permutation.
From Verif Require Import Base IndexText IndexBuild IndexHeap.
Import ListNotations.

(** A slice is in bounds and allocated in [lo, h_next). *)
Definition good (h : heap) (lo : nat) (s : slice) : Prop :=
  s_len s <= s_cap s /\ length (h_arr h (s_id s)) = s_cap s /\ lo <= s_id s < h_next h.
(** The slices of a list: all good, on pairwise different arrays, with given contents. *)
Definition holds (h : heap) (lo : nat) (sl : list slice) (cs : list (list (list N * field_type))) : Prop :=
  Forall (good h lo) sl /\ NoDup (map s_id sl) /\ map (read h) sl = map (map Some) cs.
(** Arrays below [lo] untouched. *)
Definition frame (lo : nat) (h h' : heap) : Prop :=
  h_next h <= h_next h' /\ forall i, i < lo -> h_arr h' i = h_arr h i.
(** Arrays outside a set untouched (below the old next). *)
Definition frame_on (ids : list nat) (h h' : heap) : Prop :=
  h_next h <= h_next h' /\ forall i, i < h_next h -> ~ In i ids -> h_arr h' i = h_arr h i.

Lemma set_nth_length : forall {A} (l : list A) n x, length (set_nth l n x) = length l.
Proof. induction l as [|a l IH]; intros [|n] x; simpl; auto. Qed.
Lemma firstn_set_nth : forall {A} (l : list A) n x, n < length l -> firstn (S n) (set_nth l n x) = firstn n l ++ [x].
Proof.
  induction l as [|a l IH]; intros [|n] x H; simpl in *; try lia; auto.
  f_equal. apply IH. lia.
Qed.

Lemma append_slice_spec : forall grow h lo s x h' s', good h lo s -> append_slice grow h s x = (h', s') ->
    good h' lo s' /\ read h' s' = read h s ++ [Some x] /\ (s_id s' = s_id s \/ h_next h <= s_id s') /\
    frame_on [s_id s] h h'.
Proof.
  intros grow h lo s x h' s' (H1 & H2 & H3) H. unfold append_slice in H.
  destruct (Nat.ltb_spec (s_len s) (s_cap s)) as [HL|HL].
  - inversion H; subst. clear H. split; [|split; [|split]].
    + split; [simpl; lia|]. split; simpl; [|lia]. rewrite Nat.eqb_refl, set_nth_length. auto.
    + unfold read. cbn [s_len s_id h_arr write]. rewrite Nat.eqb_refl. apply firstn_set_nth. lia.
    + simpl. auto.
    + split; simpl; [lia|]. intros i Hi Hn. destruct (Nat.eqb_spec i (s_id s)); [subst; tauto|auto].
  - unfold alloc in H. inversion H; subst. clear H. split; [|split; [|split]].
    + split; [simpl; lia|]. split; simpl; [|lia]. rewrite Nat.eqb_refl, app_length, firstn_length. simpl.
      rewrite repeat_length. lia.
    + unfold read. cbn [s_len s_id h_arr]. rewrite Nat.eqb_refl, firstn_app.
      rewrite firstn_length, H2, Nat.min_l by lia.
      rewrite (firstn_all2 (n := S (s_len s))) by (rewrite firstn_length; lia).
      replace (S (s_len s) - s_len s) with 1 by lia. reflexivity.
    + simpl. auto.
    + split; simpl; [lia|]. intros i Hi _. destruct (Nat.eqb_spec i (h_next h)); [lia|auto].
Qed.

Lemma read_frame : forall h h' ids lo s, frame_on ids h h' -> good h lo s -> ~ In (s_id s) ids ->
    good h' lo s /\ read h' s = read h s.
Proof.
  intros h h' ids lo s [F1 F2] (H1 & H2 & H3) Hn. unfold good, read. rewrite (F2 (s_id s)) by (auto; lia).
  repeat split; auto; lia.
Qed.
Lemma holds_frame : forall h h' ids lo sl cs, frame_on ids h h' -> holds h lo sl cs ->
    (forall s, In s sl -> ~ In (s_id s) ids) -> holds h' lo sl cs.
Proof.
  intros h h' ids lo sl cs HF (H1 & H2 & H3) Hn. split; [|split; auto].
  - apply Forall_forall. intros s Hs. rewrite Forall_forall in H1. eapply read_frame; eauto.
  - rewrite <- H3. apply map_ext_in. intros s Hs. rewrite Forall_forall in H1. eapply read_frame; eauto.
Qed.
Lemma frame_on_trans : forall a b h1 h2 h3, frame_on a h1 h2 -> frame_on b h2 h3 -> frame_on (a ++ b) h1 h3.
Proof.
  intros a b h1 h2 h3 [F1 F2] [G1 G2]. split; [lia|]. intros i Hi Hn. rewrite in_app_iff in Hn.
  rewrite G2 by (auto; lia). apply F2; auto.
Qed.
Lemma frame_on_weaken : forall a b h1 h2, frame_on a h1 h2 -> (forall i, In i a -> i < h_next h1 -> In i b) -> frame_on b h1 h2.
Proof. intros a b h1 h2 [F1 F2] H. split; [exact F1|]. intros i Hi Hn. apply F2; auto. Qed.

Lemma append_all_spec : forall grow x sl h lo cs h' sl', holds h lo sl cs ->
    append_all grow h sl x = (h', sl') ->
    holds h' lo sl' (map (fun r => r ++ [x]) cs) /\
    (forall s', In s' sl' -> In (s_id s') (map s_id sl) \/ h_next h <= s_id s') /\
    frame_on (map s_id sl) h h'.
Proof.
  induction sl as [|r sl IH]; intros h lo cs h' sl' (H1 & H2 & H3) H; simpl in H.
  - inversion H; subst. destruct cs; [|discriminate]. split; [|split].
    + split; [constructor|]. split; [constructor|auto].
    + intros s' [].
    + split; auto.
  - destruct (append_slice grow h r x) as [h1 r2] eqn:E1.
    destruct (append_all grow h1 sl x) as [h2 rest] eqn:E2. inversion H; subst. clear H.
    destruct cs as [|c cs]; [discriminate|]. simpl in H3. injection H3 as Hr Hrs.
    inversion H1 as [|? ? G1 G2]; subst. simpl in H2. inversion H2 as [|? ? N1 N2]; subst.
    destruct (append_slice_spec _ _ _ _ _ _ _ G1 E1) as (A1 & A2 & A3 & A4).
    assert (HH : holds h1 lo sl cs).
    { eapply holds_frame; [exact A4|split; [exact G2|split; [exact N2|exact Hrs]]|].
      intros s Hs [E|[]]. apply N1. rewrite E. now apply in_map. }
    destruct (IH _ _ _ _ _ HH E2) as ((B1 & B2 & B3) & B4 & B5).
    assert (Hnot : ~ In (s_id r2) (map s_id sl)).
    { intros HI. destruct A3 as [A3|A3].
      - rewrite A3 in HI. tauto.
      - apply in_map_iff in HI. destruct HI as (s & E & Hs). rewrite Forall_forall in G2. destruct (G2 s Hs) as (_ & _ & Hb). lia. }
    destruct (read_frame _ _ _ _ _ B5 A1 Hnot) as [C1 C2].
    split; [|split].
    + split; [constructor; auto|]. split.
      * simpl. constructor; auto. intros HI. apply in_map_iff in HI. destruct HI as (s & E & Hs).
        destruct (B4 s Hs) as [HB|HB]; [rewrite E in HB; tauto|]. destruct A1 as (_ & _ & A1). lia.
      * simpl. rewrite B3, C2, A2, Hr. f_equal. rewrite map_app. auto.
    + intros s' [<-|Hs'].
      * simpl. destruct A3 as [->|A3]; auto.
      * destruct (B4 s' Hs') as [HB|HB]; simpl; auto. right. destruct A4. lia.
    + change (map s_id (r :: sl)) with ([s_id r] ++ map s_id sl). eapply frame_on_trans; eauto.
Qed.

Lemma slice_of1_spec : forall h x h' s, slice_of1 h x = (h', s) ->
    good h' (h_next h) s /\ read h' s = [Some x] /\ s_id s = h_next h /\ frame_on [] h h'.
Proof.
  intros h x h' s H. unfold slice_of1, alloc in H. inversion H; subst. clear H.
  split; [|split; [|split]].
  - split; [simpl; lia|]. split; simpl; [now rewrite Nat.eqb_refl|lia].
  - unfold read. simpl. now rewrite Nat.eqb_refl.
  - auto.
  - split; simpl; [lia|]. intros i Hi _. destruct (Nat.eqb_spec i (h_next h)); [lia|auto].
Qed.

Local Opaque slice_of1.
Lemma good_lower : forall h lo lo' s, lo' <= lo -> good h lo s -> good h lo' s.
Proof. intros h lo lo' s H (H1 & H2 & H3). repeat split; auto; lia. Qed.

(** The loop: result slices live on arrays allocated since [h], contents are
    those of the functional version, older arrays are untouched. *)
Lemma composite_loop_spec : forall grow rec (prec : nat -> list N * field_type -> list (list (list N * field_type))),
    (forall i fc h h' sl, rec i fc h = (h', sl) -> holds h' (h_next h) sl (prec i fc) /\ frame_on [] h h') ->
    forall l i h h' sl, composite_loop grow rec i l h = (h', sl) ->
    holds h' (h_next h) sl
      (concat (mapi_from i (fun i fc => if usable (if_type fc) then [fc] :: map (fun r => r ++ [fc]) (prec i fc) else []) l)) /\
    frame_on [] h h'.
Proof.
  intros grow rec prec Hrec. induction l as [|fc l IH]; intros i h h' sl H; simpl in H.
  - inversion H; subst. split; [|split; auto]. split; [constructor|]. split; [constructor|auto].
  - simpl. destruct (usable (if_type fc)).
    2:{ simpl. now apply IH. }
    destruct (rec i fc h) as [h1 res2] eqn:E1. destruct (slice_of1 h1 fc) as [h2 c1] eqn:E2.
    destruct (append_all grow h2 res2 fc) as [h3 cs] eqn:E3. destruct (composite_loop grow rec (S i) l h3) as [h4 rest] eqn:E4.
    inversion H; subst. clear H.
    destruct (Hrec _ _ _ _ _ E1) as [R1 R2].
    destruct (slice_of1_spec _ _ _ _ E2) as (S1 & S2 & S3 & S4).
    assert (R1' : holds h2 (h_next h) res2 (prec i fc)) by (eapply holds_frame; eauto).
    destruct (append_all_spec _ _ _ _ _ _ _ _ R1' E3) as ((A1 & A2 & A3) & A4 & A5).
    destruct (IH _ _ _ _ E4) as [(L1 & L2 & L3) L4].
    pose proof R1 as (Q1 & Q2 & Q3).
    assert (HC : ~ In (s_id c1) (map s_id res2)).
    { intros HI. apply in_map_iff in HI. destruct HI as (s & E & Hs). rewrite Forall_forall in Q1.
      destruct (Q1 s Hs) as (_ & _ & Hb). lia. }
    destruct (read_frame _ _ _ _ _ A5 S1 HC) as [C1 C2].
    destruct (read_frame _ _ _ _ _ L4 C1 (fun x => x)) as [D1 D2].
    assert (A' : holds h' (h_next h) cs (map (fun r => r ++ [fc]) (prec i fc))).
    { eapply holds_frame; [exact L4|split; [exact A1|split; [exact A2|exact A3]]|]. intros s _ []. }
    destruct A' as (A1' & A2' & A3').
    pose proof (proj1 R2) as N1. pose proof (proj1 S4) as N2. pose proof (proj1 A5) as N3. pose proof (proj1 L4) as N4.
    assert (Hcid : s_id c1 < h_next h2) by (destruct S1 as (_ & _ & S1); lia).
    split.
    + split; [|split].
      * constructor; [eapply good_lower; [|exact D1]; lia|]. apply Forall_app. split; auto.
        apply Forall_forall. intros s Hs. rewrite Forall_forall in L1. eapply good_lower; [|apply L1; auto]. lia.
      * simpl. rewrite map_app. constructor.
        -- rewrite in_app_iff. intros [HI|HI]; apply in_map_iff in HI; destruct HI as (s & E & Hs).
           ++ destruct (A4 s Hs) as [HB|HB]; [rewrite E in HB; tauto|]. lia.
           ++ rewrite Forall_forall in L1. destruct (L1 s Hs) as (_ & _ & Hb). lia.
        -- assert (HD : forall (x y : list nat), NoDup x -> NoDup y -> (forall z, In z x -> In z y -> False) -> NoDup (x ++ y)).
           { clear. induction x as [|u x IHx]; simpl; auto. intros y Hx Hy Hd. inversion Hx; subst. constructor.
             - rewrite in_app_iff. intros [HI|HI]; [auto|]. apply (Hd u); auto.
             - apply IHx; auto. intros z Hz1 Hz2. apply (Hd z); auto. }
           apply HD; auto. intros z Hz1 Hz2. apply in_map_iff in Hz1, Hz2.
           destruct Hz1 as (s1 & E1' & Hs1). destruct Hz2 as (s2 & E2' & Hs2).
           rewrite Forall_forall in A1, L1. destruct (A1 s1 Hs1) as (_ & _ & Hb1). destruct (L1 s2 Hs2) as (_ & _ & Hb2). lia.
      * simpl. rewrite map_app, A3', L3, D2, C2, S2, map_app. auto.
    + assert (F : frame_on ([] ++ [] ++ map s_id res2 ++ []) h h').
      { eapply frame_on_trans; [exact R2|]. eapply frame_on_trans; [exact S4|]. eapply frame_on_trans; [exact A5|exact L4]. }
      eapply frame_on_weaken; [exact F|]. intros j Hj Hlt. simpl in Hj. rewrite app_nil_r in Hj.
      apply in_map_iff in Hj. destruct Hj as (s & E & Hs). rewrite Forall_forall in Q1. destruct (Q1 s Hs) as (_ & _ & Hb). lia.
Qed.

Theorem composite_heap_spec : forall grow ord fuel path s h h' sl,
    composite_heap grow ord fuel path s h = (h', sl) ->
    holds h' (h_next h) sl (composite ord fuel path s) /\ frame_on [] h h'.
Proof.
  induction fuel as [|fuel IH]; intros path s h h' sl H.
  - simpl in H. inversion H; subst. split; [|split; auto]. split; [constructor|]. split; [constructor|auto].
  - cbn [composite_heap] in H. cbn [composite]. unfold mapi.
    apply (composite_loop_spec grow _ (fun i fc => composite ord fuel (path ++ [i]) (del fc s))) in H; auto.
Qed.
