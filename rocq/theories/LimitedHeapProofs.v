(** Proofs about lib/heap.go. *)
From Coq Require Import List ZArith Bool Arith Lia Permutation.
From Verif Require Import Base IndexBuild LimitedHeap LimitedHeapSpec.
Import ListNotations.
Local Open Scope nat_scope.

Section P.
  Context {A : Type} (less : A -> A -> bool) (HW : strict_weak less).
  Notation par k := ((k - 1) / 2).

  Lemma asym : forall x y, less x y = true -> less y x = false.
  Proof. apply HW. Qed.
  Lemma trans : forall x y z, less x y = false -> less y z = false -> less x z = false.
  Proof. apply HW. Qed.
  Lemma irrefl : forall x, less x x = false.
  Proof. intros x. destruct (less x x) eqn:E; auto. pose proof (asym x x E). congruence. Qed.

  Lemma par_lt : forall k, 0 < k -> par k < k.
  Proof. intros k H. apply Nat.div_lt_upper_bound; lia. Qed.
  Lemma par_children : forall k i, 0 < k -> par k = i -> k = 2 * i + 1 \/ k = 2 * i + 2.
  Proof.
    intros k i H E. pose proof (Nat.div_mod (k - 1) 2 ltac:(lia)). pose proof (Nat.mod_upper_bound (k - 1) 2 ltac:(lia)). lia.
  Qed.
  Lemma par_left : forall i, par (2 * i + 1) = i.
  Proof. intros i. replace (2 * i + 1 - 1) with (i * 2) by lia. now rewrite Nat.div_mul. Qed.
  Lemma par_right : forall i, par (2 * i + 1 + 1) = i.
  Proof. intros i. replace (2 * i + 1 + 1 - 1) with (1 + i * 2) by lia. now rewrite Nat.div_add. Qed.

  Lemma assign_length : forall (l : list A) i x, length (assign i x l) = length l.
  Proof. induction l as [|a l IH]; intros [|i] x; simpl; auto. Qed.
  Lemma assign_nth : forall (l : list A) i x k d, i < length l -> nth k (assign i x l) d = if Nat.eqb k i then x else nth k l d.
  Proof.
    induction l as [|a l IH]; intros [|i] x [|k] d H; simpl in *; try lia; auto. apply IH. lia.
  Qed.

  Lemma swap_spec : forall (l : list A) i j, i < length l -> j < length l ->
      exists l', swap i j l = Ok l' /\ length l' = length l /\ Permutation l' l /\
        forall k d, nth k l' d = if Nat.eqb k j then nth i l d else if Nat.eqb k i then nth j l d else nth k l d.
  Proof.
    intros l i j Hi Hj. destruct l as [|d0 l0] eqn:El; [simpl in Hi; lia|]. rewrite <- El in *.
    assert (Ei : nth_error l i = Some (nth i l d0)) by now apply nth_error_nth'.
    assert (Ej : nth_error l j = Some (nth j l d0)) by now apply nth_error_nth'.
    unfold swap. rewrite Ei, Ej. eexists. split; [reflexivity|]. split; [now rewrite !assign_length|].
    assert (HN : forall k d, nth k (assign j (nth i l d0) (assign i (nth j l d0) l)) d =
                if Nat.eqb k j then nth i l d else if Nat.eqb k i then nth j l d else nth k l d).
    { intros k d. rewrite assign_nth by now rewrite assign_length.
      rewrite assign_nth by auto. rewrite (nth_indep l d d0 Hi), (nth_indep l d d0 Hj). reflexivity. }
    split; [|exact HN]. apply Permutation_sym. apply (Permutation_nth _ _ d0). rewrite !assign_length. split; auto.
    exists (fun k => if Nat.eqb k j then i else if Nat.eqb k i then j else k). split; [|split].
    - intros k Hk. destruct (Nat.eqb_spec k j), (Nat.eqb_spec k i); auto.
    - intros a b Ha Hb. destruct (Nat.eqb_spec a j), (Nat.eqb_spec a i), (Nat.eqb_spec b j), (Nat.eqb_spec b i); lia.
    - intros k Hk. rewrite HN. destruct (Nat.eqb k j); auto. destruct (Nat.eqb k i); auto.
  Qed.
  Lemma less_at_spec : forall (l : list A) i j d, i < length l -> j < length l ->
      less_at less i j l = Ok (less (nth i l d) (nth j l d)).
  Proof.
    intros l i j d Hi Hj. unfold less_at. now rewrite (nth_error_nth' l d Hi), (nth_error_nth' l d Hj).
  Qed.

  (** no element before [n] is less than its parent *)
  Definition heap_upto (n : nat) (l : list A) : Prop :=
    forall k d, 0 < k -> k < n -> less (nth k l d) (nth (par k) l d) = false.
  Definition up_ready (j : nat) (l : list A) : Prop :=
    (forall k d, 0 < k -> k < length l -> k <> j -> less (nth k l d) (nth (par k) l d) = false) /\
    (forall k d, 0 < k -> k < length l -> par k = j -> 0 < j -> less (nth k l d) (nth (par j) l d) = false).

  Ltac eqbs := repeat match goal with
    | |- context [Nat.eqb ?a ?b] => destruct (Nat.eqb_spec a b); try lia
    end.

  Lemma up_spec : forall fuel j l, j < fuel -> j < length l -> up_ready j l ->
      exists l', up less fuel j l = Ok l' /\ Permutation l' l /\ heap_upto (length l') l'.
  Proof.
    induction fuel as [|fuel IH]; intros j l Hf Hj (H1 & H2); [lia|]. cbn [up]. cbv zeta.
    destruct (Nat.eqb_spec (par j) j) as [E|E].
    - exists l. split; [reflexivity|]. split; [apply Permutation_refl|]. intros k d Hk Hl. apply H1; auto.
      intros ->. pose proof (par_lt j Hk). lia.
    - assert (Hj0 : 0 < j) by (destruct j; [simpl in E; lia|lia]).
      pose proof (par_lt j Hj0) as Hp. remember (par j) as i eqn:Ei.
      destruct l as [|d0 l0] eqn:El; [simpl in Hj; lia|]. rewrite <- El in *.
      rewrite (less_at_spec l j i d0) by lia. cbn [obind].
      destruct (less (nth j l d0) (nth i l d0)) eqn:HL.
      + destruct (swap_spec l i j ltac:(lia) Hj) as (l' & Es & Hlen & HP & HN). rewrite Es. cbn [obind].
        assert (HLd : forall d, less (nth j l d) (nth i l d) = true).
        { intros d. rewrite (nth_indep l d d0), (nth_indep l d d0) by lia. exact HL. }
        destruct (IH i l') as (l2 & E2 & HP2 & HH); [lia|lia| |].
        { split.
          - intros k d Hk Hl Hki. rewrite Hlen in Hl. rewrite !HN. pose proof (par_lt k Hk).
            destruct (Nat.eqb_spec k j) as [->|Nkj].
            + rewrite <- Ei. eqbs. apply asym, HLd.
            + destruct (Nat.eqb_spec k i) as [|_]; [lia|].
              destruct (Nat.eqb_spec (par k) j) as [Ep|Np].
              * apply H2; auto.
              * destruct (Nat.eqb_spec (par k) i) as [Ep|Np'].
                -- apply trans with (nth i l d); [rewrite <- Ep; apply H1; auto|apply asym, HLd].
                -- apply H1; auto.
          - intros k d Hk Hl Hpk Hi0. rewrite Hlen in Hl. rewrite !HN. pose proof (par_lt i Hi0). pose proof (par_lt k Hk).
            destruct (Nat.eqb_spec (par i) j) as [|_]; [lia|]. destruct (Nat.eqb_spec (par i) i) as [|_]; [lia|].
            destruct (Nat.eqb_spec k j) as [->|Nkj].
            + apply H1; lia.
            + destruct (Nat.eqb_spec k i) as [|_]; [lia|].
              apply trans with (nth i l d); [rewrite <- Hpk; apply H1; auto|apply H1; lia]. }
        exists l2. split; [exact E2|]. split; [|exact HH]. eapply Permutation_trans; eauto.
      + exists l. split; [reflexivity|]. split; [apply Permutation_refl|]. intros k d Hk Hl.
        destruct (Nat.eq_dec k j) as [->|N]; [|auto].
        rewrite <- Ei. rewrite (nth_indep l d d0), (nth_indep l d d0) by lia. exact HL.
  Qed.

  Definition down_ready (i n : nat) (l : list A) : Prop :=
    (forall k d, 0 < k -> k < n -> par k <> i -> less (nth k l d) (nth (par k) l d) = false) /\
    (forall k d, 0 < k -> k < n -> par k = i -> 0 < i -> less (nth k l d) (nth (par i) l d) = false).

  Lemma down_spec : forall fuel i n l, n < fuel + i -> 0 < fuel -> n <= length l -> down_ready i n l ->
      exists l', down less fuel i n l = Ok l' /\ Permutation l' l /\ length l' = length l /\ heap_upto n l' /\
        forall k d, n <= k -> nth k l' d = nth k l d.
  Proof.
    induction fuel as [|fuel IH]; intros i n l Hf Hf0 Hn (H1 & H2); [lia|]. cbn [down]. cbv zeta.
    destruct (Nat.leb_spec n (2 * i + 1)) as [HL|HL].
    - exists l. split; [reflexivity|]. split; [apply Permutation_refl|]. split; [reflexivity|]. split; [|auto].
      intros k d Hk Hkn. apply H1; auto. intros E. apply par_children in E; lia.
    - destruct l as [|d0 l0] eqn:El; [simpl in Hn; lia|]. rewrite <- El in *.
      assert (HR : exists right : bool, (if Nat.ltb (2 * i + 1 + 1) n then less_at less (2 * i + 1 + 1) (2 * i + 1) l else Ok false) = Ok right /\
        let j := if right then 2 * i + 1 + 1 else 2 * i + 1 in j < n /\ par j = i /\ 2 * i + 1 <= j /\
        forall k d, 0 < k -> k < n -> par k = i -> less (nth k l d) (nth j l d) = false).
      { destruct (Nat.ltb_spec (2 * i + 1 + 1) n) as [HR|HR].
        - rewrite (less_at_spec l _ _ d0) by lia. eexists. split; [reflexivity|]. cbv zeta.
          destruct (less (nth (2 * i + 1 + 1) l d0) (nth (2 * i + 1) l d0)) eqn:E.
          + split; [exact HR|]. split; [apply par_right|]. split; [lia|]. intros k d Hk Hkn Hp.
            apply par_children in Hp; auto. destruct Hp as [->| ->].
            * apply asym. rewrite (nth_indep l d d0), (nth_indep l d d0) by lia. exact E.
            * replace (2 * i + 2) with (2 * i + 1 + 1) by lia. apply irrefl.
          + split; [lia|]. split; [apply par_left|]. split; [lia|]. intros k d Hk Hkn Hp.
            apply par_children in Hp; auto. destruct Hp as [->| ->].
            * apply irrefl.
            * replace (2 * i + 2) with (2 * i + 1 + 1) by lia. rewrite (nth_indep l d d0), (nth_indep l d d0) by lia. exact E.
        - exists false. split; [reflexivity|]. cbv zeta. split; [lia|]. split; [apply par_left|]. split; [lia|].
          intros k d Hk Hkn Hp. apply par_children in Hp; auto. destruct Hp as [->| ->]; [apply irrefl|lia]. }
      destruct HR as (right & ER & HJ). rewrite ER. cbn [obind]. cbv zeta in HJ.
      remember (if right then 2 * i + 1 + 1 else 2 * i + 1) as j eqn:Ej. destruct HJ as (Hjn & Hpj & Hji & Hmin).
      rewrite (less_at_spec l j i d0) by lia. cbn [obind].
      destruct (less (nth j l d0) (nth i l d0)) eqn:HLs.
      + destruct (swap_spec l i j ltac:(lia) ltac:(lia)) as (l' & Es & Hlen & HP & HN). rewrite Es. cbn [obind].
        assert (HLd : forall d, less (nth j l d) (nth i l d) = true).
        { intros d. rewrite (nth_indep l d d0), (nth_indep l d d0) by lia. exact HLs. }
        destruct (IH j n l') as (l2 & E2 & HP2 & Hlen2 & HH & HK); [lia|lia|lia| |].
        { split.
          - intros k d Hk Hkn Hpk. rewrite !HN. pose proof (par_lt k Hk).
            destruct (Nat.eqb_spec (par k) j) as [|_]; [lia|].
            destruct (Nat.eqb_spec k j) as [->|Nkj].
            + rewrite Hpj. rewrite Nat.eqb_refl. apply asym, HLd.
            + destruct (Nat.eqb_spec k i) as [->|Nki].
              * destruct (Nat.eqb_spec (par i) i) as [|_]; [lia|]. apply H2; auto; lia.
              * destruct (Nat.eqb_spec (par k) i) as [Ep|Np]; [now apply Hmin|]. apply H1; auto.
          - intros k d Hk Hkn Hpk Hj0. rewrite !HN. pose proof (par_lt k Hk). rewrite Hpj. rewrite Nat.eqb_refl.
            destruct (Nat.eqb_spec i j) as [|_]; [lia|]. destruct (Nat.eqb_spec k j) as [|_]; [lia|].
            destruct (Nat.eqb_spec k i) as [|_]; [lia|]. rewrite <- Hpk. apply H1; auto. lia. }
        exists l2. split; [exact E2|]. split; [eapply Permutation_trans; eauto|]. split; [congruence|]. split; [exact HH|].
        intros k d Hk. rewrite HK by auto. rewrite HN. eqbs. reflexivity.
      + exists l. split; [reflexivity|]. split; [apply Permutation_refl|]. split; [reflexivity|]. split; [|auto].
        intros k d Hk Hkn. destruct (Nat.eq_dec (par k) i) as [E|N]; [|now apply H1].
        apply trans with (nth j l d); [now apply Hmin|]. rewrite E.
        rewrite (nth_indep l d d0), (nth_indep l d d0) by lia. exact HLs.
  Qed.

  Lemma heap_min : forall l k d, heap_upto (length l) l -> k < length l -> less (nth k l d) (nth 0 l d) = false.
  Proof.
    intros l k d H. induction k as [k IH] using (well_founded_induction lt_wf). intros Hk.
    destruct k as [|k']; [apply irrefl|]. pose proof (par_lt (S k') ltac:(lia)).
    apply trans with (nth (par (S k')) l d); [apply H; lia|apply IH; lia].
  Qed.
  Lemma heap_min_in : forall l y d, heap_upto (length l) l -> In y l -> less y (nth 0 l d) = false.
  Proof. intros l y d H Hy. apply (In_nth _ _ d) in Hy. destruct Hy as (k & Hk & <-). now apply heap_min. Qed.

  Lemma heap_push_spec : forall l x, heap_upto (length l) l ->
      exists l', heap_push less x l = Ok l' /\ Permutation l' (x :: l) /\ heap_upto (length l') l'.
  Proof.
    intros l x H. unfold heap_push. rewrite app_length. cbn [length].
    destruct (up_spec (length l + 1) (length l + 1 - 1) (l ++ [x])) as (l' & E & HP & HH).
    - lia.
    - rewrite app_length. cbn [length]. lia.
    - replace (length l + 1 - 1) with (length l) by lia. split.
      + intros k d Hk Hl Hn. rewrite app_length in Hl. cbn [length] in Hl. pose proof (par_lt k Hk).
        rewrite !app_nth1 by lia. apply H; lia.
      + intros k d Hk Hl Hp. rewrite app_length in Hl. cbn [length] in Hl. pose proof (par_lt k Hk). lia.
    - exists l'. split; [exact E|]. split; [|exact HH]. eapply Permutation_trans; [exact HP|].
      apply Permutation_sym, Permutation_cons_append.
  Qed.

  Lemma nth_firstn : forall (l : list A) n k d, k < n -> nth k (firstn n l) d = nth k l d.
  Proof. induction l as [|a l IH]; intros [|n] [|k] d H; simpl; auto; try lia. apply IH. lia. Qed.

  Lemma heap_pop_spec : forall l, l <> [] -> heap_upto (length l) l ->
      exists m l', heap_pop less l = Ok (m, l') /\ Permutation (m :: l') l /\ heap_upto (length l') l' /\
        forall y, In y l -> less y m = false.
  Proof.
    intros l Hne H. destruct l as [|d0 l0] eqn:El; [congruence|]. rewrite <- El in *.
    assert (Hlen : 0 < length l) by (rewrite El; simpl; lia).
    replace (heap_pop less l) with (do vals1 <- swap 0 (length l - 1) l; do vals2 <- down less (length l) 0 (length l - 1) vals1; pop_last vals2)
      by (rewrite El; reflexivity).
    set (n := length l - 1) in *.
    destruct (swap_spec l 0 n ltac:(lia) ltac:(lia)) as (l1 & E1 & L1 & P1 & N1). rewrite E1. cbn [obind].
    destruct (down_spec (length l) 0 n l1) as (l2 & E2 & P2 & L2 & H2 & K2); [lia|lia|lia| |].
    { split; [|intros; lia]. intros k d Hk Hkn Hp. pose proof (par_lt k Hk). rewrite !N1. eqbs. apply H; lia. }
    rewrite E2. cbn [obind]. exists (nth 0 l d0), (firstn n l2).
    assert (Hlast : nth_error l2 n = Some (nth 0 l d0)).
    { rewrite (nth_error_nth' l2 d0) by lia. f_equal. rewrite K2 by lia. rewrite N1. now rewrite Nat.eqb_refl. }
    assert (L2n : length l2 - 1 = n) by lia.
    split; [|split; [|split]].
    - unfold pop_last. destruct l2 as [|x l2']; [simpl in L2; lia|]. rewrite L2n, Hlast. reflexivity.
    - assert (ES : l2 = firstn n l2 ++ [nth 0 l d0]).
      { rewrite <- (firstn_skipn n l2) at 1. f_equal. apply nth_error_split in Hlast. destruct Hlast as (a & b & Eab & La).
        rewrite Eab. rewrite skipn_app. rewrite <- La, skipn_all, Nat.sub_diag. cbn [app skipn].
        assert (b = []); [|now subst]. apply length_zero_iff_nil. rewrite Eab in L2. rewrite app_length in L2. cbn [length] in L2. lia. }
      eapply Permutation_trans; [apply Permutation_cons_append|]. rewrite <- ES. eapply Permutation_trans; eauto.
    - intros k d Hk Hkl. rewrite firstn_length in Hkl. pose proof (par_lt k Hk). rewrite !nth_firstn by lia. apply H2; lia.
    - intros y Hy. now apply heap_min_in.
  Qed.

  Lemma pop_all_spec : forall fuel l, length l <= fuel -> heap_upto (length l) l ->
      exists r, pop_all less fuel l = Ok (r, []) /\ Permutation r l /\ sorted_by less r.
  Proof.
    induction fuel as [|fuel IH]; intros l Hl H.
    - destruct l; [|simpl in Hl; lia]. exists []. repeat split; constructor.
    - destruct l as [|x l0] eqn:El; [exists []; repeat split; constructor|]. rewrite <- El in *.
      replace (pop_all less (S fuel) l) with (do r <- heap_pop less l; do s <- pop_all less fuel (snd r); Ok (fst r :: fst s, snd s))
        by (rewrite El; reflexivity).
      destruct (heap_pop_spec l) as (m & l' & E & HP & HH & HM); [rewrite El; discriminate|auto|].
      rewrite E. cbn [obind fst snd]. destruct (IH l') as (r & Er & HPr & HS); [|exact HH|].
      { apply Permutation_length in HP. cbn [length] in HP. lia. }
      rewrite Er. cbn [obind fst snd]. exists (m :: r). split; [reflexivity|]. split.
      + eapply Permutation_trans; [apply perm_skip, HPr|exact HP].
      + constructor; [|exact HS]. apply Forall_forall. intros y Hy. apply HM. eapply Permutation_in; [exact HP|].
        right. eapply Permutation_in; eauto.
  Qed.

  Lemma push_spec : forall limit x l, heap_upto (length l) l -> (Z.of_nat (length l) <= Z.max 0 limit)%Z ->
      exists l' drop, push less limit x l = Ok l' /\ heap_upto (length l') l' /\ Permutation (drop ++ l') (x :: l) /\
        Z.of_nat (length l') = Z.min (Z.max 0 limit) (Z.of_nat (S (length l))) /\
        forall y z, In z drop -> In y (x :: l) -> less y z = false.
  Proof.
    intros limit x l H HL. unfold push. destruct (heap_push_spec l x H) as (l1 & E1 & P1 & H1). rewrite E1. cbn [obind].
    pose proof (Permutation_length P1) as L1. cbn [length] in L1.
    destruct (Z.ltb_spec limit (Z.of_nat (length l1))) as [HT|HT].
    - destruct (heap_pop_spec l1) as (m & l2 & E2 & P2 & H2 & HM); [destruct l1; [simpl in L1; lia|discriminate]|exact H1|].
      rewrite E2. cbn [obind snd]. exists l2, [m]. pose proof (Permutation_length P2) as L2. cbn [length] in L2.
      split; [reflexivity|]. split; [exact H2|]. split; [|split].
      + cbn [app]. eapply Permutation_trans; eauto.
      + lia.
      + intros y z [<-|[]] Hy. apply HM. eapply Permutation_in; [apply Permutation_sym, P1|exact Hy].
    - exists l1, []. split; [reflexivity|]. split; [exact H1|]. split; [exact P1|]. split; [lia|]. intros y z [].
  Qed.

  Lemma push_all_spec : forall limit xs l gone, heap_upto (length l) l ->
      Z.of_nat (length l) = Z.min (Z.max 0 limit) (Z.of_nat (length (gone ++ l))) ->
      (forall y z, In z gone -> In y l -> less y z = false) ->
      exists l' gone', push_all less limit xs l = Ok l' /\ heap_upto (length l') l' /\
        Permutation (gone' ++ l') (gone ++ l ++ xs) /\
        Z.of_nat (length l') = Z.min (Z.max 0 limit) (Z.of_nat (length (gone' ++ l'))) /\
        (forall y z, In z gone' -> In y l' -> less y z = false).
  Proof.
    intros limit xs. induction xs as [|x xs IH]; intros l gone H HL HG.
    - exists l, gone. split; [reflexivity|]. split; auto. split; [rewrite app_nil_r; apply Permutation_refl|]. auto.
    - cbn [push_all]. destruct (push_spec limit x l H) as (l1 & drop & E1 & H1 & P1 & L1 & D1); [lia|].
      rewrite E1. cbn [obind]. pose proof (Permutation_length P1) as PL. rewrite app_length in PL. cbn [length] in PL.
      rewrite app_length in HL.
      destruct (IH l1 (gone ++ drop)) as (l2 & g2 & E2 & H2 & P2 & L2 & D2).
      + exact H1.
      + rewrite !app_length. lia.
      + (* new members are not less than anything gone *)
        intros y z Hz Hy. apply in_app_iff in Hz. assert (Hy' : In y (x :: l)).
        { eapply Permutation_in; [exact P1|]. apply in_app_iff. auto. }
        destruct Hz as [Hz|Hz]; [|now apply D1].
        destruct Hy' as [->|Hy']; [|now apply HG].
        (* y was just pushed although something was gone: then the heap was full *)
        destruct drop as [|m drop].
        { exfalso. destruct gone; [elim Hz|]. cbn [app length] in *. lia. }
        (* y is kept, so m is not greater; m came from the old members or is y *)
        assert (Hm : In m (y :: l)) by (eapply Permutation_in; [exact P1|left; reflexivity]).
        destruct Hm as [<-|Hm].
        * (* a second copy of y; it equals a kept one: compare with old members *)
          assert (Hyl : In y l).
          { cbn [app] in P1. apply Permutation_cons_inv in P1. eapply Permutation_in; [exact P1|].
            apply in_app_iff. auto. }
          now apply HG.
        * apply trans with m; [apply D1; [left; reflexivity|left; reflexivity]|now apply HG].
      + exists l2, g2. split; [exact E2|]. split; [exact H2|]. split; [|auto].
        eapply Permutation_trans; [exact P2|]. rewrite <- app_assoc. apply Permutation_app_head.
        rewrite app_assoc. eapply Permutation_trans; [apply Permutation_app_tail, P1|].
        cbn [app]. apply Permutation_middle.
  Qed.

  Lemma push_and_pop_spec : forall limit xs,
      exists kept dropped, push_and_pop less limit xs = Ok (kept, []) /\ Permutation (kept ++ dropped) xs /\
        Z.of_nat (length kept) = Z.min (Z.max 0 limit) (Z.of_nat (length xs)) /\ sorted_by less kept /\
        forall k d, In k kept -> In d dropped -> less k d = false.
  Proof.
    intros limit xs. unfold push_and_pop.
    destruct (push_all_spec limit xs [] []) as (l & g & E & H & P & L & D).
    - intros k d H1 H2. simpl in H2. lia.
    - cbn [length app]. lia.
    - intros y z [].
    - rewrite E. cbn [obind]. destruct (pop_all_spec (length l) l (Nat.le_refl _) H) as (r & Er & Pr & Sr).
      exists r, g. split; [exact Er|]. cbn [app] in P. split; [|split; [|split; [exact Sr|]]].
      + eapply Permutation_trans; [apply Permutation_app_tail, Pr|]. eapply Permutation_trans; [apply Permutation_app_comm|exact P].
      + rewrite (Permutation_length Pr). rewrite L. now rewrite (Permutation_length P).
      + intros k d Hk Hd. apply D; auto. eapply Permutation_in; eauto.
  Qed.
End P.
