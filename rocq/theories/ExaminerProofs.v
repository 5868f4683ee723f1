From Coq Require Import String List NArith ZArith Bool Lia Arith.
From Verif Require Import Base Dec IndexText IndexTextSpec IndexTextProofs Examiner ExaminerSpec.
Import ListNotations.

(** ** Names *)
Lemma digit_word : forall s, forallb is_digit s = true -> Forall word_char s.
Proof.
  intros s H. apply forallb_word_iff. rewrite forallb_forall in *. intros x Hx.
  apply is_digit_word; auto.
Qed.

Lemma Forall_join : forall (P : rune -> Prop) sep l, Forall P sep -> Forall (Forall P) l -> Forall P (join sep l).
Proof.
  induction l as [|x l IH]; intros Hs HF; [constructor|]. inversion HF; subst.
  destruct l as [|y l]; [assumption|].
  change (join sep (x :: y :: l)) with (x ++ sep ++ join sep (y :: l)).
  rewrite !Forall_app. repeat split; auto.
Qed.

Lemma underscore_word : Forall word_char (lit "_").
Proof. constructor; [|constructor]. unfold word_char. vm_compute. auto. Qed.

Lemma byte_len_words : forall s, Forall word_char s -> byte_len s = length s.
Proof.
  induction 1; simpl; auto. rewrite IHForall. unfold rune_len.
  destruct (N.ltb_spec x 128); auto. unfold word_char in H. lia.
Qed.

Lemma join_safe_words : forall cols, Forall word_char (join (lit "_") (map safe_name cols)).
Proof.
  intros. apply Forall_join; [apply underscore_word|]. apply Forall_forall.
  intros x Hx. apply in_map_iff in Hx. destruct Hx as (y & <- & _). apply safe_name_words.
Qed.

Lemma idx_name_words : forall unix rnd it, Forall word_char (idx_name (dec_of_N unix) rnd it).
Proof.
  intros. unfold idx_name.
  assert (HW : Forall word_char (dec_of_N unix ++ lit "_" ++ join (lit "_") (map safe_name (it_cols it)))).
  { rewrite !Forall_app. split; [|split].
    - apply digit_word, dec_of_N_digits.
    - apply underscore_word.
    - apply join_safe_words. }
  destruct (Nat.ltb _ _); auto. rewrite !Forall_app. split; [|split].
  - rewrite <- (firstn_skipn max_idx_name_len) in HW. apply Forall_app in HW. tauto.
  - apply underscore_word.
  - apply digit_word, dec_of_N_digits.
Qed.

Lemma idx_name_identifier : forall unix rnd it, identifier (idx_name (dec_of_N unix) rnd it).
Proof.
  intros. split; [|apply idx_name_words]. unfold idx_name.
  destruct (Nat.ltb _ _); intros E; apply app_eq_nil in E; destruct E as [_ E]; discriminate E.
Qed.

Lemma idx_name_len : forall unix rnd it, (rnd < 999999999)%N ->
    byte_len (idx_name (dec_of_N unix) rnd it) <= 40.
Proof.
  intros unix rnd it Hr. rewrite byte_len_words by apply idx_name_words.
  unfold idx_name.
  rewrite byte_len_words.
  2:{ rewrite !Forall_app. split; [|split].
    - apply digit_word, dec_of_N_digits.
    - apply underscore_word.
    - apply join_safe_words. }
  match goal with |- context [Nat.ltb ?a ?b] => destruct (Nat.ltb_spec a b) as [H|H] end.
  - rewrite !app_length. rewrite firstn_length_le by lia.
    pose proof (dec_of_N_length 8 rnd) as HL.
    assert (Hr2 : (rnd < 10 ^ N.of_nat 9)%N) 
      by (replace (10 ^ N.of_nat 9)%N with 1000000000%N by reflexivity; lia).
    specialize (HL Hr2). unfold max_idx_name_len. change (length (lit "_")) with 1. lia.
  - unfold max_idx_name_len in H. lia.
Qed.

Lemma idx_name_short : forall unix rnd it,
    length (dec_of_N unix ++ lit "_" ++ join (lit "_") (map safe_name (it_cols it))) <= 30 ->
    idx_name (dec_of_N unix) rnd it = dec_of_N unix ++ lit "_" ++ join (lit "_") (map safe_name (it_cols it)).
Proof.
  intros unix rnd it H. unfold idx_name. rewrite byte_len_words.
  - match goal with |- context [Nat.ltb ?a ?b] => destruct (Nat.ltb_spec a b) as [H1|H1] end; auto.
    unfold max_idx_name_len in *. lia.
  - rewrite !Forall_app. split; [|split].
    + apply digit_word, dec_of_N_digits.
    + apply underscore_word.
    + apply join_safe_words.
Qed.

(** Cutting 30 bytes is cutting 30 characters: the cut text is ASCII. *)
Lemma idx_name_cut_ascii : forall unix it,
    Forall (fun c => (c < 128)%N) (dec_of_N unix ++ lit "_" ++ join (lit "_") (map safe_name (it_cols it))).
Proof.
  intros. apply Forall_impl with (P := word_char); [unfold word_char; intros; lia|].
  rewrite !Forall_app. split; [|split].
  - apply digit_word, dec_of_N_digits.
  - apply underscore_word.
  - apply join_safe_words.
Qed.

(** ** Shape of the traces *)
Section Shape.
  Context {W : Type} (db : database W).

  (** One examined target, all calls successful. *)
  Definition good_block (n : gostring) (it : index_target) (ms : Z) : list event :=
    [EvCreate n it None; EvExecute (inl ms); EvDrop n it None].

  (** One examined target ending with error [m]. *)
  Inductive bad_block : index_target -> gostring -> list event -> Prop :=
  | bb_create : forall n it e, bad_block it e [EvCreate n it (Some e)]
  | bb_exec : forall n it e d, bad_block it e [EvCreate n it None; EvExecute (inr e); EvDrop n it d]
  | bb_drop : forall n it ms e, bad_block it (lit "failed to drop index: " ++ e)
                                  [EvCreate n it None; EvExecute (inl ms); EvDrop n it (Some e)].

  Lemma examine_shape : forall w id rnd it tr w' r, examine db w id rnd it = (tr, w', r) ->
      (exists ms, tr = good_block (idx_name id rnd it) it ms /\ r = Ok {| ir_target := it; ir_millis := ms |}) \/
      (exists m, bad_block it m tr /\ r = Err m).
  Proof.
    intros w id rnd it tr w' r H. unfold examine in H.
    destruct (db_create db w (idx_name id rnd it) it) as [w1 [e|]].
    - inversion H; subst. right. eexists; split; [constructor|reflexivity].
    - destruct (db_execute db w1) as [w2 [ms|e]]; destruct (db_drop db w2 (idx_name id rnd it) it) as [w3 [d|]];
        inversion H; subst.
      + right; eexists; split; [constructor|reflexivity].
      + left. eexists; split; reflexivity.
      + right; eexists; split; [constructor|reflexivity].
      + right; eexists; split; [constructor|reflexivity].
  Qed.

  (** Trace of a whole loop. *)
  Inductive loop_trace : list index_target -> list event -> outcome (list index_result) -> Prop :=
  | lt_nil : loop_trace [] [] (Ok [])
  | lt_good : forall it its n ms tr r,
      loop_trace its tr r ->
      loop_trace (it :: its) (good_block n it ms ++ tr)
                 (do rs <- r; Ok ({| ir_target := it; ir_millis := ms |} :: rs))
  | lt_bad : forall it its m tr, bad_block it m tr -> loop_trace (it :: its) tr (Err m).

  Lemma run_loop_shape : forall its w id rnds k tr w' r,
      run_loop db w id rnds k its = (tr, w', r) -> loop_trace its tr r.
  Proof.
    induction its as [|it its IH]; intros w id rnds k tr w' r H; simpl in H.
    - inversion H; subst. constructor.
    - destruct (examine db w id (rnds k) it) as [[tr1 w1] r1] eqn:E.
      apply examine_shape in E. destruct E as [(ms & -> & ->)|(m & Hb & ->)].
      + destruct (run_loop db w1 id rnds (S k) its) as [[tr2 w2] r2] eqn:E2.
        inversion H; subst. constructor. eapply IH; eauto.
      + inversion H; subst. now constructor.
  Qed.

  Lemma run_loop_names : forall its w id rnds k tr w' r,
      run_loop db w id rnds k its = (tr, w', r) ->
      forall n it a, In (EvCreate n it a) tr \/ In (EvDrop n it a) tr ->
                     In it its /\ exists j, n = idx_name id (rnds j) it.
  Proof.
    induction its as [|it0 its IH]; intros w id rnds k tr w' r H n it a HI; simpl in H.
    - inversion H; subst. simpl in HI; tauto.
    - destruct (examine db w id (rnds k) it0) as [[tr1 w1] r1] eqn:E.
      assert (H1 : In (EvCreate n it a) tr1 \/ In (EvDrop n it a) tr1 ->
                   In it (it0 :: its) /\ exists j, n = idx_name id (rnds j) it).
      { intros HI1. unfold examine in E.
        destruct (db_create db w (idx_name id (rnds k) it0) it0) as [w2 [e|]].
        - inversion E; subst. simpl in HI1. destruct HI1 as [[HI1|[]]|[HI1|[]]]; inversion HI1; subst.
          split; [now left|eauto].
        - destruct (db_execute db w2) as [w3 [ms|e]];
            destruct (db_drop db w3 (idx_name id (rnds k) it0) it0) as [w4 [d|]];
            inversion E; subst; simpl in HI1;
            (destruct HI1 as [[HI1|[HI1|[HI1|[]]]]|[HI1|[HI1|[HI1|[]]]]]; inversion HI1; subst;
             (split; [now left|eauto])). }
      destruct r1 as [res|m|].
      + destruct (run_loop db w1 id rnds (S k) its) as [[tr2 w2] r2] eqn:E2.
        inversion H; subst. rewrite !in_app_iff in HI.
        assert (HI' : (In (EvCreate n it a) tr1 \/ In (EvDrop n it a) tr1) \/
                      (In (EvCreate n it a) tr2 \/ In (EvDrop n it a) tr2)) by tauto.
        destruct HI' as [HI'|HI']; [auto|].
        destruct (IH _ _ _ _ _ _ _ E2 _ _ _ HI') as [? ?]. split; [now right|auto].
      + inversion H; subst. auto.
      + inversion H; subst. auto.
  Qed.

  (** Trace of Run. *)
  Inductive run_trace (its : list index_target) : list event -> outcome examination_result -> Prop :=
  | rt_fail : forall e, run_trace its [EvExecute (inr e)] (Err e)
  | rt_loop : forall ms tr r, loop_trace its tr r ->
      run_trace its (EvExecute (inl ms) :: tr) (do rs <- r; Ok {| er_results := rs; er_original := ms |}).

  Lemma run_shape : forall w unix rnds its tr w' r, run db w unix rnds its = (tr, w', r) -> run_trace its tr r.
  Proof.
    intros w unix rnds its tr w' r H. unfold run in H.
    destruct (db_execute db w) as [w1 [ms|e]].
    - destruct (run_loop db w1 (dec_of_N unix) rnds 0 its) as [[tr2 w2] r2] eqn:E.
      inversion H; subst. constructor. eapply run_loop_shape; eauto.
    - inversion H; subst. constructor.
  Qed.

  Lemma run_names : forall w unix rnds its tr w' r, run db w unix rnds its = (tr, w', r) ->
      forall n it a, In (EvCreate n it a) tr \/ In (EvDrop n it a) tr ->
                     In it its /\ exists j, n = idx_name (dec_of_N unix) (rnds j) it.
  Proof.
    intros w unix rnds its tr w' r H n it a HI. unfold run in H.
    destruct (db_execute db w) as [w1 [ms|e]].
    - destruct (run_loop db w1 (dec_of_N unix) rnds 0 its) as [[tr2 w2] r2] eqn:E.
      inversion H; subst. eapply run_loop_names; eauto.
      destruct HI as [[HI|HI]|[HI|HI]]; try discriminate; eauto.
    - inversion H; subst. destruct HI as [[HI|[]]|[HI|[]]]; discriminate.
  Qed.
End Shape.

(** ** Every successful creation is followed by its drop. *)
Lemma app_cons_split : forall {A} (p a b : list A) x s, p ++ x :: s = a ++ b ->
    (exists m, a = p ++ x :: m /\ s = m ++ b) \/ (exists m, p = a ++ m /\ b = m ++ x :: s).
Proof.
  induction p as [|y p IH]; intros a b x s H; simpl in H.
  - destruct a as [|z a]; simpl in H.
    + right. exists []. auto.
    + inversion H; subst. left. exists a; auto.
  - destruct a as [|z a]; simpl in H.
    + right. exists (y :: p). auto.
    + inversion H; subst. destruct (IH _ _ _ _ H2) as [(m & -> & ->)|(m & -> & ->)].
      * left; exists m; auto.
      * right; exists m; auto.
Qed.

Lemma bad_block_create : forall it m tr, bad_block it m tr -> forall p n it' s,
    tr = p ++ EvCreate n it' None :: s -> p = [] /\ it' = it /\
    exists x d, s = [EvExecute x; EvDrop n it' d].
Proof.
  intros it m tr H p n it' s E.
  destruct H; destruct p as [|e1 [|e2 [|e3 [|e4 p]]]]; simpl in E; inversion E; subst; eauto 10.
Qed.

Lemma good_block_create : forall n it ms p n' it' s,
    good_block n it ms = p ++ EvCreate n' it' None :: s -> p = [] /\ it' = it /\ n' = n /\
    s = [EvExecute (inl ms); EvDrop n it None].
Proof.
  intros n it ms p n' it' s E. unfold good_block in E.
  destruct p as [|e1 p]; simpl in E.
  - inversion E; subst; auto.
  - inversion E as [[E1 E2]]. destruct p as [|e2 p]; [discriminate E2|]. inversion E2 as [[E3 E4]].
    destruct p as [|e3 p]; [discriminate E4|]. inversion E4 as [[E5 E6]]. destruct p; discriminate E6.
Qed.

Lemma loop_create_drop : forall its tr r, loop_trace its tr r -> forall p n it s,
    tr = p ++ EvCreate n it None :: s -> exists x d s', s = EvExecute x :: EvDrop n it d :: s'.
Proof.
  induction 1; intros p n0 it0 s E.
  - destruct p; discriminate.
  - symmetry in E. destruct (app_cons_split _ _ _ _ _ E) as [(m & E1 & ->)|(m & -> & E1)].
    + apply good_block_create in E1. destruct E1 as (-> & -> & -> & ->). simpl. eauto.
    + eapply IHloop_trace; eauto.
  - eapply bad_block_create in H; eauto. destruct H as (-> & -> & x & d & ->). eauto.
Qed.

Lemma run_create_drop : forall its tr r, run_trace its tr r -> forall p n it s,
    tr = p ++ EvCreate n it None :: s -> exists x d s', s = EvExecute x :: EvDrop n it d :: s'.
Proof.
  intros its tr r H p n it s E. destruct H.
  - destruct p as [|? [|? ?]]; discriminate.
  - destruct p as [|e p]; [discriminate|]. inversion E; subst. eapply loop_create_drop; eauto.
Qed.

(** ** Every drop is preceded by its own successful creation. *)
Lemma loop_drop_create : forall its tr r, loop_trace its tr r -> forall p n it d s,
    tr = p ++ EvDrop n it d :: s -> exists p' x, p = p' ++ [EvCreate n it None; EvExecute x].
Proof.
  induction 1; intros p n0 it0 d s E.
  - destruct p; discriminate.
  - symmetry in E. destruct (app_cons_split _ _ _ _ _ E) as [(m & E1 & ->)|(m & -> & E1)].
    + unfold good_block in E1.
      destruct p as [|e1 [|e2 [|e3 p]]]; simpl in E1; inversion E1; subst.
      * exists [], (inl ms). reflexivity.
      * destruct p; discriminate.
    + destruct (IHloop_trace _ _ _ _ _ E1) as (p' & x & ->).
      exists (good_block n it ms ++ p'), x. now rewrite app_assoc.
  - destruct H; destruct p as [|e1 [|e2 [|e3 p]]]; simpl in E; inversion E; subst;
      try (destruct p; discriminate).
    + exists [], (inr e). reflexivity.
    + exists [], (inl ms). reflexivity.
Qed.

Lemma run_drop_create : forall its tr r, run_trace its tr r -> forall p n it d s,
    tr = p ++ EvDrop n it d :: s -> exists p' x, p = p' ++ [EvCreate n it None; EvExecute x].
Proof.
  intros its tr r H p n it d s E. destruct H.
  - destruct p as [|? [|? ?]]; discriminate.
  - destruct p as [|e p]; [discriminate|]. inversion E as [[E1 E2]]. subst e.
    destruct (loop_drop_create _ _ _ H _ _ _ _ _ E2) as (p' & x & ->).
    exists (EvExecute (inl ms) :: p'), x. reflexivity.
Qed.

(** ** The index set along the trace. *)
Section Replay.
  Context {K : Type} (key : gostring -> index_target -> K).

  Definition same (A B : K -> Prop) := forall k, A k <-> B k.

  Lemma replay_ext : forall tr A B, same A B -> same (replay key A tr) (replay key B tr).
  Proof.
    induction tr as [|e tr IH]; intros A B H; simpl; auto.
    destruct e as [x|n it [e|]|n it [e|]]; apply IH; auto.
    - intros k. rewrite (H k). tauto.
    - intros k. rewrite (H k). tauto.
  Qed.

  Lemma replay_app : forall a b A, replay key A (a ++ b) = replay key (replay key A a) b.
  Proof.
    induction a as [|e a IH]; intros b A; simpl; auto.
    destruct e as [x|n it [e|]|n it [e|]]; apply IH.
  Qed.

  (** Creations in [tr] succeed only for keys absent at that point. *)
  Fixpoint fresh_creates (A : K -> Prop) (tr : list event) : Prop :=
    match tr with
    | [] => True
    | EvCreate n it None :: tr' => ~ A (key n it) /\ fresh_creates (fun k => A k \/ k = key n it) tr'
    | EvDrop n it None :: tr' => fresh_creates (fun k => A k /\ k <> key n it) tr'
    | _ :: tr' => fresh_creates A tr'
    end.

  Lemma fresh_ext : forall tr A B, same A B -> fresh_creates A tr -> fresh_creates B tr.
  Proof.
    induction tr as [|e tr IH]; intros A B H HF; simpl in *; auto.
    destruct e as [x|n it [e|]|n it [e|]]; try (eapply IH; eauto; fail).
    - destruct HF as [HF1 HF2]. split; [now rewrite <- (H _)|].
      eapply IH; [|eauto]. intros k. rewrite (H k). tauto.
    - eapply IH; [|eauto]. intros k. rewrite (H k). tauto.
  Qed.

  Lemma same_refl : forall A, same A A. Proof. intros A k; tauto. Qed.
  Lemma same_sym : forall A B, same A B -> same B A. Proof. intros A B H k; symmetry; apply H. Qed.
  Lemma same_trans : forall A B C, same A B -> same B C -> same A C.
  Proof. intros A B C H1 H2 k. rewrite (H1 k). apply H2. Qed.

  Lemma good_block_same : forall n it ms A, ~ A (key n it) -> same (replay key A (good_block n it ms)) A.
  Proof.
    intros n it ms A H k. simpl. split.
    - intros [[HA|HA] HB]; tauto.
    - intros HA. split; [tauto|]. intros ->. tauto.
  Qed.

  (** [p] is reached with the base set [A] possibly extended by one key. *)
  Definition at_most_one_more (A B : K -> Prop) : Prop :=
    same B A \/ exists k0, ~ A k0 /\ same B (fun k => A k \/ k = k0).

  Lemma amo_ext : forall A A' B B', same A A' -> same B B' -> at_most_one_more A B -> at_most_one_more A' B'.
  Proof.
    intros A A' B B' H1 H2 [H|(k0 & Hk & H)].
    - left. intros k. rewrite <- (H2 k), (H k). apply H1.
    - right. exists k0. split; [now rewrite <- (H1 k0)|].
      intros k. rewrite <- (H2 k), (H k), (H1 k). tauto.
  Qed.

  Lemma loop_replay : forall its tr r, loop_trace its tr r -> forall A, fresh_creates A tr ->
      forall p, prefix_of_trace p tr -> at_most_one_more A (replay key A p).
  Proof.
    induction 1; intros A HF p [s E].
    - destruct p; [|discriminate]. left. apply same_refl.
    - simpl in E. simpl in HF. destruct HF as [HF1 HF2].
      destruct p as [|e1 p]; [left; apply same_refl|]. simpl in E. inversion E as [[E1 E2]]. subst e1.
      destruct p as [|e2 p]; [right; exists (key n it); split; [auto|apply same_refl]|].
      inversion E2 as [[E3 E4]]. subst e2.
      destruct p as [|e3 p]; [right; exists (key n it); split; [auto|apply same_refl]|].
      inversion E4 as [[E5 E6]]. subst e3. simpl.
      assert (HS : same (fun k => (A k \/ k = key n it) /\ k <> key n it) A).
      { apply (good_block_same n it ms A HF1). }
      eapply amo_ext; [apply same_refl|apply replay_ext; apply same_sym; exact HS|].
      apply IHloop_trace; [|exists s; auto].
      eapply fresh_ext; eauto.
    - destruct H; simpl in HF; destruct p as [|e1 [|e2 [|e3 [|e4 p]]]]; simpl in E; inversion E; subst;
        try (left; apply same_refl; fail); try discriminate; simpl;
        try (right; exists (key n it); split; [tauto|apply same_refl]; fail).
      + destruct d; [right; exists (key n it); split; [tauto|apply same_refl]|].
        left. apply (good_block_same n it 0%Z A). tauto.
  Qed.

  Lemma run_replay : forall its tr r, run_trace its tr r -> forall A, fresh_creates A tr ->
      forall p, prefix_of_trace p tr -> at_most_one_more A (replay key A p).
  Proof.
    intros its tr r H A HF p [s E]. destruct H.
    - destruct p as [|e1 [|e2 p]]; simpl in E; inversion E; subst; left; apply same_refl.
    - destruct p as [|e1 p]; [left; apply same_refl|]. simpl in E. inversion E; subst. simpl in *.
      eapply loop_replay; eauto. exists s; reflexivity.
  Qed.

  (** No drop failed: nothing is left. *)
  Lemma loop_replay_all : forall its tr r, loop_trace its tr r -> forall A, fresh_creates A tr ->
      (forall n it e, ~ In (EvDrop n it (Some e)) tr) -> same (replay key A tr) A.
  Proof.
    induction 1; intros A HF HD.
    - apply same_refl.
    - rewrite replay_app. simpl in HF. destruct HF as [HF1 HF2].
      pose proof (good_block_same n it ms A HF1) as HS.
      eapply same_trans; [apply replay_ext; exact HS|].
      apply IHloop_trace.
      + eapply fresh_ext; [|exact HF2]. exact HS.
      + intros n' it' e HI. apply (HD n' it' e). apply in_or_app. now right.
    - destruct H; simpl in HF.
      + apply same_refl.
      + destruct d as [g|].
        * exfalso. apply (HD n it g). simpl; auto.
        * apply (good_block_same n it 0%Z A). tauto.
      + exfalso. apply (HD n it e). simpl; auto.
  Qed.

  Lemma run_replay_all : forall its tr r, run_trace its tr r -> forall A, fresh_creates A tr ->
      (forall n it e, ~ In (EvDrop n it (Some e)) tr) -> same (replay key A tr) A.
  Proof.
    intros its tr r H A HF HD. destruct H.
    - apply same_refl.
    - simpl in *. eapply loop_replay_all; eauto. intros n it e HI. apply (HD n it e). auto.
  Qed.

  Context {W : Type} (db : database W) (ix : W -> K -> Prop) (HDB : index_database db key ix).

  Lemma examine_db : forall w id rnd it tr w' r, examine db w id rnd it = (tr, w', r) ->
      fresh_creates (ix w) tr /\ same (ix w') (replay key (ix w) tr).
  Proof.
    intros w id rnd it tr w' r H. unfold examine in H.
    destruct (db_create db w (idx_name id rnd it) it) as [w1 [e|]] eqn:E1.
    - inversion H; subst. simpl. split; auto. intros k. eapply ixd_create_fail; eauto.
    - destruct (db_execute db w1) as [w2 x] eqn:E2.
      destruct (db_drop db w2 (idx_name id rnd it) it) as [w3 d] eqn:E3.
      assert (HH : tr = [EvCreate (idx_name id rnd it) it None; EvExecute x; EvDrop (idx_name id rnd it) it d] /\ w' = w3).
      { destruct x, d; inversion H; auto. }
      destruct HH as [-> ->]. clear H. simpl.
      destruct (ixd_create_ok _ _ _ HDB _ _ _ _ E1) as [Hf Hc].
      pose proof (ixd_execute _ _ _ HDB _ _ _ E2) as He.
      destruct d.
      + split; [split; auto|]. intros k.
        rewrite (ixd_drop_fail _ _ _ HDB _ _ _ _ _ E3 k), (He k). apply Hc.
      + split; [split; auto|]. intros k.
        rewrite (ixd_drop_ok _ _ _ HDB _ _ _ _ E3 k), (He k), (Hc k). tauto.
  Qed.

  Lemma fresh_app : forall a b A, fresh_creates A a -> fresh_creates (replay key A a) b -> fresh_creates A (a ++ b).
  Proof.
    induction a as [|e a IH]; intros b A H1 H2; simpl in *; auto.
    destruct e as [x|n it [e|]|n it [e|]]; try (apply IH; auto; fail).
    destruct H1. split; auto.
  Qed.

  Lemma run_loop_db : forall its w id rnds k tr w' r, run_loop db w id rnds k its = (tr, w', r) ->
      fresh_creates (ix w) tr /\ same (ix w') (replay key (ix w) tr).
  Proof.
    induction its as [|it its IH]; intros w id rnds k tr w' r H; simpl in H.
    - inversion H; subst. simpl. split; auto. apply same_refl.
    - destruct (examine db w id (rnds k) it) as [[tr1 w1] r1] eqn:E.
      apply examine_db in E. destruct E as [F1 S1]. destruct r1.
      + destruct (run_loop db w1 id rnds (S k) its) as [[tr2 w2] r2] eqn:E2.
        inversion H; subst. destruct (IH _ _ _ _ _ _ _ E2) as [F2 S2]. split.
        * apply fresh_app; auto. eapply fresh_ext; eauto.
        * rewrite replay_app. eapply same_trans; [exact S2|]. apply replay_ext; auto.
      + inversion H; subst; auto.
      + inversion H; subst; auto.
  Qed.

  Lemma run_db : forall w unix rnds its tr w' r, run db w unix rnds its = (tr, w', r) ->
      fresh_creates (ix w) tr /\ same (ix w') (replay key (ix w) tr).
  Proof.
    intros w unix rnds its tr w' r H. unfold run in H.
    destruct (db_execute db w) as [w1 x] eqn:E0. pose proof (ixd_execute _ _ _ HDB _ _ _ E0) as He.
    destruct x as [ms|e].
    - destruct (run_loop db w1 (dec_of_N unix) rnds 0 its) as [[tr2 w2] r2] eqn:E.
      inversion H; subst. destruct (run_loop_db _ _ _ _ _ _ _ _ E) as [F S]. simpl. split.
      + eapply fresh_ext; eauto.
      + eapply same_trans; [exact S|]. apply replay_ext; exact He.
    - inversion H; subst. simpl. split; auto.
  Qed.

  Theorem run_index_set : forall w unix rnds its tr w' r, run db w unix rnds its = (tr, w', r) ->
      (forall k, ix w' k <-> replay key (ix w) tr k) /\
      (forall p, prefix_of_trace p tr ->
         (forall k, ix w k -> replay key (ix w) p k) /\
         (forall k1 k2, replay key (ix w) p k1 -> ~ ix w k1 ->
                        replay key (ix w) p k2 -> ~ ix w k2 -> k1 = k2)) /\
      ((forall n it e, ~ In (EvDrop n it (Some e)) tr) -> forall k, ix w' k <-> ix w k).
  Proof.
    intros w unix rnds its tr w' r H.
    pose proof (run_shape db _ _ _ _ _ _ _ H) as HS.
    destruct (run_db _ _ _ _ _ _ _ H) as [HF HR].
    split; [exact HR|]. split.
    - intros p Hp. destruct (run_replay _ _ _ HS _ HF _ Hp) as [Hs|(k0 & Hk & Hs)].
      + split.
        * intros k. apply Hs.
        * intros k1 k2 H1 N1. elim N1. now apply Hs.
      + split.
        * intros k Hix. apply Hs; auto.
        * intros k1 k2 H1 N1 H2 N2. apply Hs in H1, H2. destruct H1, H2; tauto || congruence.
    - intros HD k. rewrite (HR k). apply (run_replay_all _ _ _ HS _ HF HD k).
  Qed.
End Replay.

(** ** The outcome. *)
Lemma loop_ok_iff : forall its tr r, loop_trace its tr r ->
    (Forall succeeded tr <-> exists rs, r = Ok rs).
Proof.
  induction 1.
  - split; eauto.
  - rewrite Forall_app, IHloop_trace. split.
    + intros [_ [rs ->]]. simpl. eauto.
    + intros [rs E]. destruct r; try discriminate. split; [|eauto].
      unfold good_block. repeat constructor.
  - split.
    + intros HF. exfalso. destruct H.
      * inversion HF; subst; auto.
      * inversion HF as [|? ? ? HF2]; subst. inversion HF2; subst; auto.
      * inversion HF as [|? ? ? HF2]; subst. inversion HF2 as [|? ? ? HF3]; subst. inversion HF3; subst; auto.
    + intros [rs E]; discriminate.
Qed.

Lemma loop_ok_results : forall its tr r, loop_trace its tr r -> forall rs, r = Ok rs ->
    map ir_target rs = its /\ map ir_millis rs = times tr /\
    exists names, length names = length its /\
      tr = flat_map (fun p => good_block (fst p) (ir_target (snd p)) (ir_millis (snd p))) (combine names rs).
Proof.
  induction 1; intros rs0 E.
  - inversion E; subst. simpl. repeat split. exists []. auto.
  - destruct r as [rs1| |]; try discriminate. simpl in E. inversion E; subst.
    destruct (IHloop_trace rs1 eq_refl) as (E1 & E2 & names & E3 & E4). simpl. split; [now f_equal|].
    split; [now f_equal|]. exists (n :: names). simpl. rewrite <- E4. auto.
  - discriminate.
Qed.

Lemma run_ok_iff : forall its tr r, run_trace its tr r ->
    ((exists er, r = Ok er) <-> Forall succeeded tr).
Proof.
  intros its tr r H. destruct H.
  - split; [intros [? E]; discriminate|]. intros HF; inversion HF; subst. destruct H1.
  - split.
    + intros [er E]. destruct r; try discriminate. constructor; [exact I|].
      apply (loop_ok_iff _ _ _ H). eauto.
    + intros HF. inversion HF; subst. apply (loop_ok_iff _ _ _ H) in H3. destruct H3 as [rs ->]. simpl. eauto.
Qed.

Lemma run_ok_results : forall its tr r, run_trace its tr r -> forall er, r = Ok er ->
    map ir_target (er_results er) = its /\
    exists names, length names = length its /\
      tr = EvExecute (inl (er_original er)) ::
           flat_map (fun p => good_block (fst p) (ir_target (snd p)) (ir_millis (snd p))) (combine names (er_results er)).
Proof.
  intros its tr r H er E. destruct H; [discriminate|].
  destruct r as [rs| |]; try discriminate. inversion E; subst. simpl.
  destruct (loop_ok_results _ _ _ H rs eq_refl) as (E1 & E2 & names & E3 & E4).
  split; auto. exists names. split; auto. now f_equal.
Qed.

Lemma loop_err : forall its tr r, loop_trace its tr r -> forall m, r = Err m ->
    exists p ev s e, tr = p ++ ev :: s /\ Forall succeeded p /\ failed_with ev e /\
      (s = [] \/ (exists n it d, s = [EvDrop n it d])) /\
      (m = e \/ ((exists n it x, ev = EvDrop n it x) /\ m = lit "failed to drop index: " ++ e)).
Proof.
  induction 1; intros m0 E.
  - discriminate.
  - destruct r as [|m1|]; try discriminate. simpl in E. inversion E; subst.
    destruct (IHloop_trace _ eq_refl) as (p & ev & s & e & -> & HF & Hf & Hs & Hm).
    exists (good_block n it ms ++ p), ev, s, e. split; [now rewrite app_assoc|].
    split; [|tauto]. apply Forall_app. split; auto. unfold good_block. repeat constructor.
  - inversion E; subst. destruct H.
    + exists [], (EvCreate n it (Some e)), [], e. unfold failed_with. simpl. repeat split; eauto 10.
    + exists [EvCreate n it None], (EvExecute (inr e)), [EvDrop n it d], e.
      unfold failed_with. simpl. repeat split; eauto 10. repeat constructor.
    + exists [EvCreate n it None; EvExecute (inl ms)], (EvDrop n it (Some e)), [], e.
      unfold failed_with. split; [reflexivity|]. split; [repeat constructor|]. split; [eauto 10|].
      split; [now left|]. right. split; eauto.
Qed.

Lemma run_err : forall its tr r, run_trace its tr r -> forall m, r = Err m ->
    exists p ev s e, tr = p ++ ev :: s /\ Forall succeeded p /\ failed_with ev e /\
      (s = [] \/ (exists n it d, s = [EvDrop n it d])) /\
      (m = e \/ ((exists n it x, ev = EvDrop n it x) /\ m = lit "failed to drop index: " ++ e)).
Proof.
  intros its tr r H m E. destruct H.
  - inversion E; subst. exists [], (EvExecute (inr m)), [], m. unfold failed_with. repeat split; auto.
  - destruct r as [|m1|]; try discriminate. inversion E; subst.
    destruct (loop_err _ _ _ H _ eq_refl) as (p & ev & s & e & -> & HF & Hf & Hs & Hm).
    exists (EvExecute (inl ms) :: p), ev, s, e. split; auto. split; [|tauto]. constructor; [exact I|auto].
Qed.

Lemma loop_no_panic : forall its tr r, loop_trace its tr r -> r <> Panic.
Proof. induction 1; try congruence. destruct r; simpl; congruence. Qed.
Lemma run_no_panic : forall its tr r, run_trace its tr r -> r <> Panic.
Proof. intros its tr r H. destruct H; try congruence. apply loop_no_panic in H. destruct r; simpl; congruence. Qed.

(** Created targets are the given ones, in order. *)
Lemma loop_asked : forall its tr r, loop_trace its tr r -> exists rest, its = asked tr ++ rest /\
    ((exists rs, r = Ok rs) -> rest = []).
Proof.
  induction 1.
  - exists []. auto.
  - destruct IHloop_trace as (rest & -> & Hr). exists rest. unfold asked. rewrite flat_map_app.
    split; auto. intros [rs E]. destruct r; try discriminate. apply Hr. eauto.
  - exists its. split; [|intros [rs E]; discriminate].
    destruct H; reflexivity.
Qed.
Lemma run_asked : forall its tr r, run_trace its tr r -> exists rest, its = asked tr ++ rest /\
    ((exists er, r = Ok er) -> rest = []).
Proof.
  intros its tr r H. destruct H.
  - exists its. split; auto. intros [er E]; discriminate.
  - destruct (loop_asked _ _ _ H) as (rest & E & Hr). exists rest. split; auto.
    intros [er E2]. destruct r; try discriminate. apply Hr; eauto.
Qed.
