(** Proofs about trees built through a stack of pointers. *)
From Coq Require Import String List NArith ZArith QArith Bool Lia Arith.
From Verif Require Import Base Dec ExplainTree ExplainSpec.
Import ListNotations.
Local Open Scope nat_scope.

Section TreeInd.
  Context {A : Type} (P : tree A -> Prop).
  Hypothesis HN : forall a cs, Forall P cs -> P (Node a cs).
  Fixpoint tree_ind' (t : tree A) : P t :=
    match t with
    | Node a cs => HN a cs ((fix go (l : list (tree A)) : Forall P l :=
                               match l with
                               | [] => Forall_nil P
                               | t :: l' => Forall_cons t (tree_ind' t) (go l')
                               end) cs)
    end.
End TreeInd.

Lemma Forall2_impl : forall A B (P Q : A -> B -> Prop), (forall a b, P a b -> Q a b) ->
    forall l l', Forall2 P l l' -> Forall2 Q l l'.
Proof. intros A B P Q H. induction 1; constructor; auto. Qed.

Section Zip.
  Context {A : Type}.
  Notation tree := (tree A).
  Notation heap := (heap A).

  (** The pointer [p] shows the tree [t], without going through [s]. *)
  Inductive rep (h : heap) (s : list nat) : nat -> tree -> Prop :=
  | rep_node : forall p v cs ts,
      ~ In p s -> nth_error h p = Some (Build_cell v cs) -> Forall2 (rep h s) cs ts ->
      rep h s p (Node v ts).

  Lemma rep_ind' : forall h s (P : nat -> tree -> Prop),
      (forall p v cs ts, ~ In p s -> nth_error h p = Some (Build_cell v cs) ->
          Forall2 (rep h s) cs ts -> Forall2 P cs ts -> P p (Node v ts)) ->
      forall p t, rep h s p t -> P p t.
  Proof.
    intros h s P H. fix IH 3. intros p t R. destruct R as [p v cs ts Hn He Hf].
    apply (H p v cs ts); auto. clear He Hn.
    induction Hf; constructor; auto.
  Qed.

  Lemma nth_alloc : forall (h : heap) v p c,
      nth_error h p = Some c -> nth_error (fst (alloc h v)) p = Some c.
  Proof.
    intros. simpl. rewrite nth_error_app1; auto. apply nth_error_Some. congruence.
  Qed.

  Lemma nth_add : forall (h : heap) p n q,
      nth_error (add_child h p n) q =
      if Nat.eqb q p
      then option_map (fun c => Build_cell (c_val c) (c_children c ++ [n])) (nth_error h q)
      else nth_error h q.
  Proof.
    induction h as [|c h IH]; intros p n q.
    - destruct p, q; simpl; auto. destruct (Nat.eqb q p); auto.
    - destruct p, q; simpl; auto.
  Qed.
  Lemma length_add : forall (h : heap) p n, length (add_child h p n) = length h.
  Proof. induction h; intros [|p] n; simpl; auto. Qed.

  (** Allocating keeps what pointers show, also when the new node goes on the stack. *)
  Lemma rep_alloc : forall (h : heap) v s p t,
      rep h s p t -> rep (fst (alloc h v)) (length h :: s) p t.
  Proof.
    intros h v s. apply rep_ind'. intros p w cs ts Hn He _ IH.
    apply rep_node with cs; auto.
    - intros [<-|H]; auto.
      assert (length h < length h) by (apply nth_error_Some; congruence). lia.
    - now apply nth_alloc.
  Qed.
  Lemma rep_add : forall (h : heap) s q n p t, In q s -> rep h s p t -> rep (add_child h q n) s p t.
  Proof.
    intros h s q n p t Hq. revert p t. apply rep_ind'. intros p w cs ts Hn He _ IH.
    apply rep_node with cs; auto. rewrite nth_add.
    destruct (Nat.eqb_spec p q); [subst; tauto|auto].
  Qed.
  Lemma rep_mono : forall (h : heap) s s' p t, (forall x, In x s' -> In x s) -> rep h s p t -> rep h s' p t.
  Proof.
    intros h s s' p t Hi. revert p t. apply rep_ind'. intros p w cs ts Hn He _ IH.
    apply rep_node with cs; auto.
  Qed.

  (** The open nodes with their finished children, top first. *)
  Definition frames := list (A * list tree).
  Fixpoint zclose (F : frames) (below : list tree) : option tree :=
    match F with
    | [] => None
    | [(v, ts)] => Some (Node v (ts ++ below))
    | (v, ts) :: F' => zclose F' [Node v (ts ++ below)]
    end.
  Definition zsize (F : frames) : nat :=
    fold_right (fun f n => S (forest_size (snd f)) + n) 0 F.

  (** The stack [st] of pointers into [h] stands for [F]; [next] is the pointer the
      frame above was attached with. *)
  Inductive stands (h : heap) (full : list nat) : list nat -> list nat -> frames -> Prop :=
  | st_nil : forall next, stands h full next [] []
  | st_cons : forall next p st v cs ts F,
      nth_error h p = Some (Build_cell v (cs ++ next)) ->
      Forall2 (rep h full) cs ts -> stands h full [p] st F ->
      stands h full next (p :: st) ((v, ts) :: F).

  Definition inv (h : heap) (st : list nat) (F : frames) : Prop :=
    stands h st [] st F /\ NoDup st /\ Forall (fun p => p < length h) st /\
    zsize F = length h.

  Lemma stands_alloc : forall (h : heap) v full next st F,
      stands h full next st F -> stands (fst (alloc h v)) (length h :: full) next st F.
  Proof.
    intros h v full next st F H.
    induction H as [|next p st w cs ts F Hn Hr HS IH]; [constructor|apply st_cons with cs]; auto.
    - now apply nth_alloc.
    - eapply Forall2_impl; [|exact Hr]. intros; now apply rep_alloc.
  Qed.
  Lemma stands_add : forall (h : heap) q n full next st F,
      In q full -> ~ In q st -> stands h full next st F -> stands (add_child h q n) full next st F.
  Proof.
    intros h q n full next st F Hq Hni H.
    induction H as [|next p st w cs ts F Hn Hr HS IH]; [constructor|apply st_cons with cs]; auto.
    - rewrite nth_add. destruct (Nat.eqb_spec p q); [subst; elim Hni; left; auto|auto].
    - eapply Forall2_impl; [|exact Hr]. intros; now apply rep_add.
    - apply IH. intros Hi; apply Hni; right; auto.
  Qed.
  Lemma stands_mono : forall (h : heap) full full' next st F,
      (forall x, In x full' -> In x full) -> stands h full next st F -> stands h full' next st F.
  Proof.
    intros h full full' next st F Hi H.
    induction H as [|next p st w cs ts F Hn Hr HS IH]; [constructor|apply st_cons with cs]; auto.
    eapply Forall2_impl; [|exact Hr]. intros; eapply rep_mono; eauto.
  Qed.

  (** Pushing a new node as child of the top. *)
  Lemma inv_attach : forall (h : heap) top st v ts F x,
      inv h (top :: st) ((v, ts) :: F) ->
      inv (add_child (fst (alloc h x)) top (length h)) (length h :: top :: st) ((x, []) :: (v, ts) :: F).
  Proof.
    intros h top st v ts F x (HS & HN & HL & HZ).
    assert (Hlt : top < length h) by (inversion HL; auto).
    split; [|split; [|split]].
    - assert (Hne : length h <> top) by lia.
      eapply st_cons with (cs := []) (ts := []); [|constructor|].
      + rewrite nth_add. destruct (Nat.eqb_spec (length h) top); [congruence|].
        simpl. rewrite nth_error_app2, Nat.sub_diag; auto.
      + inversion HS; subst.
        apply st_cons with cs.
        * rewrite nth_add, Nat.eqb_refl. simpl.
          rewrite nth_error_app1 by auto.
          match goal with H : nth_error h top = _ |- _ => rewrite H end. simpl.
          now rewrite app_nil_r.
        * match goal with H : Forall2 _ cs ts |- _ =>
            eapply Forall2_impl; [|exact H] end.
          intros a b R. apply rep_add; [right; left; auto|]. apply rep_alloc. exact R.
        * inversion HN; subst. apply stands_add; [right; left; auto|auto|].
          apply stands_alloc. auto.
    - constructor; auto. intros Hi.
      pose proof (proj1 (Forall_forall _ _) HL _ Hi). simpl in *. lia.
    - constructor; [rewrite length_add; simpl; rewrite app_length; simpl; lia|].
      eapply Forall_impl; [|exact HL]. intros a Ha; simpl in *.
      rewrite length_add, app_length; simpl; lia.
    - rewrite length_add. simpl in *. rewrite app_length. simpl. lia.
  Qed.

  Lemma forest_size_app : forall (a b : list tree), forest_size (a ++ b) = forest_size a + forest_size b.
  Proof. induction a; simpl; intros; auto. unfold forest_size in *. simpl. rewrite IHa. lia. Qed.
  Lemma tree_size_node : forall v (ts : list tree), tree_size (Node v ts) = S (forest_size ts).
  Proof. reflexivity. Qed.

  (** Popping the top: its tree is finished. *)
  Lemma inv_pop : forall (h : heap) p top st x xs v ts F,
      inv h (p :: top :: st) ((x, xs) :: (v, ts) :: F) ->
      inv h (top :: st) ((v, ts ++ [Node x xs]) :: F).
  Proof.
    intros h p top st x xs v ts F (HS & HN & HL & HZ).
    inversion HS as [|? ? ? ? cs0 ? ? Hnth0 Hreps0 HS0]; subst.
    inversion HS0 as [|? ? ? ? cs1 ? ? Hnth1 Hreps1 HS1]; subst.
    inversion HN as [|? ? Hnin HN']; subst. rewrite app_nil_r in Hnth0.
    assert (Hi : forall y, In y (top :: st) -> In y (p :: top :: st)) by (intros; right; auto).
    split; [|split; [|split]].
    - apply st_cons with (cs1 ++ [p]).
      + now rewrite app_nil_r.
      + apply Forall2_app.
        * eapply Forall2_impl; [|exact Hreps1]. intros; eapply rep_mono; eauto.
        * constructor; [|constructor]. apply rep_node with cs0; auto.
          eapply Forall2_impl; [|exact Hreps0]. intros; eapply rep_mono; eauto.
      + eapply stands_mono; eauto.
    - auto.
    - now inversion HL.
    - simpl in *. rewrite forest_size_app. unfold forest_size at 2. simpl.
      rewrite <- HZ. unfold forest_size. lia.
  Qed.

  Lemma zclose_pop : forall x xs v ts (F : frames),
      zclose ((x, xs) :: (v, ts) :: F) [] = zclose ((v, ts ++ [Node x xs]) :: F) [].
  Proof.
    intros. cbn [zclose]. rewrite app_nil_r. destruct F as [|[w ws] F].
    - now rewrite app_nil_r.
    - now rewrite app_nil_r.
  Qed.

  Lemma stands_length : forall h full next st F, stands h full next st F -> length st = length F.
  Proof. induction 1; simpl; auto. Qed.

  (** All nodes popped: the root shows the whole tree. *)
  Lemma inv_close : forall n (h : heap) st F, length F = n -> inv h st F -> F <> [] ->
      exists t, zclose F [] = Some t /\ rep h [] (last st 0) t /\ tree_size t = length h.
  Proof.
    induction n as [|n IH]; intros h st F Hn HI HF; [destruct F; simpl in *; congruence|].
    destruct F as [|[v ts] [|[w ws] F]]; [congruence| |].
    - destruct HI as (HS & HN & HL & HZ).
      inversion HS as [|? p ? ? cs ? ? Hnth Hreps HS0]; subst. inversion HS0; subst.
      exists (Node v ts). split; [simpl; now rewrite app_nil_r|]. split.
      + simpl. apply rep_node with cs; auto.
        * now rewrite app_nil_r in Hnth.
        * eapply Forall2_impl; [|exact Hreps]. intros a b R; refine (rep_mono _ _ _ _ _ _ R). intros x [].
      + rewrite tree_size_node. simpl in HZ. lia.
    - pose proof (stands_length _ _ _ _ _ (proj1 HI)) as HLen. simpl in HLen.
      destruct st as [|p [|q st]]; simpl in HLen; try lia.
      apply inv_pop in HI. rewrite zclose_pop.
      apply IH in HI; [|simpl in *; lia|congruence].
      destruct HI as (t & H1 & H2 & H3). exists t. auto.
  Qed.

  Fixpoint height (t : tree) : nat :=
    match t with Node _ cs => S (fold_right (fun t n => Nat.max (height t) n) 0 cs) end.
  Lemma height_size : forall t : tree, height t <= tree_size t.
  Proof.
    apply tree_ind'. intros a cs H. simpl. apply le_n_S.
    induction H; simpl; lia.
  Qed.
  Lemma read_rep : forall f (h : heap) s p t, rep h s p t -> height t <= f -> read f h p = Some t.
  Proof.
    induction f as [|f IH]; intros h s p t R Hh; destruct R as [p v cs ts Hn He Hf].
    - simpl in Hh. lia.
    - cbn [read]. rewrite He. cbn [c_val c_children]. simpl in Hh. apply le_S_n in Hh.
      clear He. enough (E : (fix go (l : list nat) : option (list tree) :=
              match l with
              | [] => Some []
              | q :: l' => match read f h q, go l' with
                           | Some t, Some ts => Some (t :: ts)
                           | _, _ => None
                           end
              end) cs = Some ts) by now rewrite E.
      induction Hf; auto. simpl in Hh.
      rewrite (IH _ _ _ _ H) by lia. rewrite IHHf by lia. reflexivity.
  Qed.

  Lemma inv_read : forall (h : heap) st F, inv h st F -> F <> [] -> last st 0 = 0 ->
      exists t, zclose F [] = Some t /\ tree_at h 0 = Ok t.
  Proof.
    intros h st F HI HF HL.
    destruct (inv_close _ _ _ _ eq_refl HI HF) as (t & H1 & H2 & H3).
    exists t. split; auto. unfold tree_at. rewrite HL in H2.
    erewrite read_rep; eauto. pose proof (height_size t). lia.
  Qed.

  Lemma inv_init : forall v, inv (fst (alloc [] v)) [0] [(v, [])].
  Proof.
    intros v. split; [|split; [|split]].
    - apply st_cons with []; [reflexivity|constructor|constructor].
    - constructor; auto. constructor.
    - repeat constructor.
    - reflexivity.
  Qed.

  Lemma inv_val : forall (h : heap) p st v ts F, inv h (p :: st) ((v, ts) :: F) -> heap_val h p = Some v.
  Proof.
    intros h p st v ts F (HS & _). inversion HS as [|? ? ? ? ? ? ? Hn]; subst.
    unfold heap_val. now rewrite Hn.
  Qed.
  Lemma inv_stack : forall (h : heap) st v ts F, inv h st ((v, ts) :: F) -> exists p st', st = p :: st'.
  Proof. intros h st v ts F (HS & _). inversion HS; subst; eauto. Qed.

  (** ** Depths *)
  (** The nodes of a zipper in pre-order with their depths; the bottom frame is the
      root, which is not listed. *)
  Fixpoint zdepths (F : frames) : list (nat * A) :=
    match F with
    | [] => []
    | [(_, ts)] => forest_depths 0 ts
    | (v, ts) :: (F' as r) => zdepths F' ++ (length r - 1, v) :: forest_depths (length r) ts
    end.

  Lemma forest_depths_app : forall d (a b : list tree),
      forest_depths d (a ++ b) = forest_depths d a ++ forest_depths d b.
  Proof. intros. unfold forest_depths. apply flat_map_app. Qed.

  Lemma zdepths_pop : forall x xs v ts (F : frames),
      zdepths ((x, xs) :: (v, ts) :: F) = zdepths ((v, ts ++ [Node x xs]) :: F).
  Proof.
    intros. destruct F as [|[w ws] F].
    - cbn [zdepths length]. rewrite forest_depths_app. simpl. now rewrite app_nil_r.
    - cbn [zdepths]. rewrite forest_depths_app. rewrite <- app_assoc. cbn [app]. f_equal. f_equal.
      f_equal. unfold forest_depths at 2. simpl. now rewrite app_nil_r.
  Qed.
  Lemma zdepths_close : forall n (F : frames) t, length F = n -> zclose F [] = Some t ->
      zdepths F = forest_depths 0 (t_children t).
  Proof.
    induction n as [|n IH]; intros F t Hn Hc; destruct F as [|[v ts] [|[w ws] F]]; simpl in Hn; try lia.
    - discriminate.
    - simpl in Hc. rewrite app_nil_r in Hc. inversion Hc; subst. reflexivity.
    - rewrite zclose_pop in Hc. rewrite zdepths_pop. apply IH; auto.
  Qed.
  Lemma zdepths_attach : forall x (F : frames), F <> [] ->
      zdepths ((x, []) :: F) = zdepths F ++ [(length F - 1, x)].
  Proof. intros x F H. destruct F as [|f F]; [congruence|]. reflexivity. Qed.

  (** A forest is determined by its depths. *)
  Definition deeper (d : nat) (l : list (nat * A)) : Prop :=
    match l with [] => True | (e, _) :: _ => e < d end.
  Lemma tree_depths_all : forall (t : tree) d, Forall (fun p => d <= fst p) (tree_depths d t).
  Proof.
    apply (tree_ind' (fun t => forall d, Forall (fun p => d <= fst p) (tree_depths d t))).
    intros a cs H d. simpl. constructor; [simpl; lia|].
    induction H; simpl; [constructor|]. apply Forall_app. split; auto.
    eapply Forall_impl; [|apply H]. intros; simpl in *; lia.
  Qed.
  Lemma forest_depths_inj_aux : forall n (f g : list tree) d r r',
      forest_size f <= n ->
      forest_depths d f ++ r = forest_depths d g ++ r' -> deeper d r -> deeper d r' ->
      f = g /\ r = r'.
  Proof.
    induction n as [|n IH]; intros f g d r r' Hn HE Hr Hr'.
    - destruct f as [|[a cs] f]; [|unfold forest_size in Hn; simpl in Hn; lia].
      destruct g as [|[b ds] g]; auto.
      simpl in HE. subst. simpl in Hr. lia.
    - destruct f as [|[a cs] f], g as [|[b ds] g].
      + auto.
      + simpl in HE. subst. simpl in Hr. lia.
      + simpl in HE. subst. simpl in Hr'. lia.
      + assert (HF : forall d (f : list tree) r, deeper d r -> deeper (S d) (forest_depths d f ++ r)).
        { intros d0 f0 r0 H0. destruct f0 as [|[c es] f0]; simpl; auto.
          destruct r0 as [|[e y] r0]; simpl in *; auto. }
        simpl in HE. inversion HE as [[Hab HE']].
        unfold forest_size in Hn. simpl in Hn.
        fold (forest_size f) in Hn. fold (forest_size cs) in Hn.
        rewrite <- !app_assoc in HE'.
        destruct (IH cs ds (S d) (forest_depths d f ++ r) (forest_depths d g ++ r')) as [-> HE2]; auto.
        { lia. }
        destruct (IH f g d r r') as [-> ->]; auto. lia.
  Qed.
  Lemma forest_depths_inj : forall (f g : list tree), forest_depths 0 f = forest_depths 0 g -> f = g.
  Proof.
    intros f g H. destruct (forest_depths_inj_aux (forest_size f) f g 0 [] []) as [E _]; simpl; auto.
    now rewrite !app_nil_r.
  Qed.

  Lemma tree_depths_preorder : forall (t : tree) d, map snd (tree_depths d t) = preorder t.
  Proof.
    apply (tree_ind' (fun t => forall d, map snd (tree_depths d t) = preorder t)).
    intros a cs H d. simpl. f_equal. induction H; simpl; auto.
    rewrite map_app, H, IHForall. reflexivity.
  Qed.

End Zip.
