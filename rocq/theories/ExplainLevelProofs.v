(** Trees built by comparing indentations. *)
From Coq Require Import String List NArith ZArith QArith Bool Lia Arith.
From Verif Require Import Base Dec ExplainTree ExplainSpec ExplainTreeProofs.
Import ListNotations.
Local Open Scope nat_scope.

Section Levels.
  Context {A : Type} (lev : A -> Z).
  Notation tree := (tree A).
  Notation frames := (@frames A).

  (** Close the open nodes that are indented at least [l]; the root stays. *)
  Fixpoint zpop (l : Z) (below : list tree) (F : frames) : frames :=
    match F with
    | [] => []
    | [(v, ts)] => [(v, ts ++ below)]
    | (v, ts) :: F' => if Z.leb l (lev v) then zpop l [Node v (ts ++ below)] F'
                       else (v, ts ++ below) :: F'
    end.
  Definition zstep (F : frames) (x : A) : frames := (x, []) :: zpop (lev x) [] F.
  Definition zrun (F : frames) (xs : list A) : frames := fold_left zstep xs F.

  Lemma zpop_nonempty : forall F l b, F <> [] -> zpop l b F <> [].
  Proof.
    induction F as [|[v ts] F IH]; intros l b H; [congruence|].
    destruct F as [|f F]; [simpl; congruence|]. cbn [zpop].
    destruct (Z.leb l (lev v)); [apply IH; congruence|congruence].
  Qed.
  Lemma zstep_nonempty : forall F x, zstep F x <> [].
  Proof. intros; unfold zstep; congruence. Qed.
  Lemma zrun_nonempty : forall xs F, F <> [] -> zrun F xs <> [].
  Proof. induction xs; simpl; intros; auto. apply IHxs. apply zstep_nonempty. Qed.

  Lemma zclose_zpop : forall F l b, zclose (zpop l b F) [] = zclose F b.
  Proof.
    induction F as [|[v ts] F IH]; intros l b; auto.
    destruct F as [|f F]; [simpl; now rewrite app_nil_r|].
    change (zpop l b ((v, ts) :: f :: F)) with
      (if Z.leb l (lev v) then zpop l [Node v (ts ++ b)] (f :: F) else (v, ts ++ b) :: f :: F).
    destruct (Z.leb l (lev v)).
    - rewrite IH. reflexivity.
    - cbn [zclose]. now rewrite app_nil_r.
  Qed.

  Lemma zpop_top : forall l v ts F, (lev v < l)%Z -> zpop l [] ((v, ts) :: F) = (v, ts) :: F.
  Proof.
    intros l v ts F H. destruct F as [|f F]; [simpl; now rewrite app_nil_r|].
    cbn [zpop]. destruct (Z.leb_spec l (lev v)); [lia|]. now rewrite app_nil_r.
  Qed.
  Lemma zpop_pop : forall l x xs v ts F, (l <= lev x)%Z ->
      zpop l [] ((x, xs) :: (v, ts) :: F) = zpop l [] ((v, ts ++ [Node x xs]) :: F).
  Proof.
    intros l x xs v ts F H.
    change (zpop l [] ((x, xs) :: (v, ts) :: F)) with
      (if Z.leb l (lev x) then zpop l [Node x (xs ++ [])] ((v, ts) :: F)
       else (x, xs ++ []) :: (v, ts) :: F).
    destruct (Z.leb_spec l (lev x)); [|lia]. rewrite app_nil_r.
    destruct F as [|f F]; cbn [zpop]; rewrite !app_nil_r; reflexivity.
  Qed.
  Lemma zrun_head : forall x xs F G, zpop (lev x) [] F = zpop (lev x) [] G -> zrun F (x :: xs) = zrun G (x :: xs).
  Proof. intros x xs F G H. unfold zrun. simpl. unfold zstep at 2 4. now rewrite H. Qed.
  Lemma zrun_app : forall a b F, zrun F (a ++ b) = zrun (zrun F a) b.
  Proof. intros. unfold zrun. apply fold_left_app. Qed.

  (** Reading the pre-order of a well indented tree leaves exactly that tree. *)
  Inductive zindented : tree -> Prop :=
  | zind : forall a cs, Forall (fun c => (lev a < lev (t_val c))%Z) cs -> zfalling cs ->
      Forall zindented cs -> zindented (Node a cs)
  with zfalling : list tree -> Prop :=
  | zf_nil : zfalling []
  | zf_one : forall c, zfalling [c]
  | zf_cons : forall c d cs, (lev (t_val d) <= lev (t_val c))%Z -> zfalling (d :: cs) -> zfalling (c :: d :: cs).

  Lemma preorder_head : forall t : tree, exists l, preorder t = t_val t :: l.
  Proof. intros [a cs]. simpl. eauto. Qed.

  Lemma zrun_forest : forall cs : list tree,
      Forall (fun t => forall v ts F l, (lev v < lev (t_val t))%Z -> (l <= lev (t_val t))%Z ->
                zpop l [] (zrun ((v, ts) :: F) (preorder t)) = zpop l [] ((v, ts ++ [t]) :: F)) cs ->
      zfalling cs ->
      forall v ts F l, Forall (fun c => (lev v < lev (t_val c))%Z) cs ->
        Forall (fun c => (l <= lev (t_val c))%Z) cs ->
        zpop l [] (zrun ((v, ts) :: F) (flat_map preorder cs)) = zpop l [] ((v, ts ++ cs) :: F).
  Proof.
    induction cs as [|c cs IH]; intros HT Hf v ts F l Hv Hl.
    - rewrite app_nil_r. reflexivity.
    - inversion HT as [|? ? Hc HT']; subst. inversion Hv as [|? ? Hvc Hv']; subst.
      inversion Hl as [|? ? Hlc Hl']; subst.
      cbn [flat_map]. rewrite zrun_app. destruct cs as [|d cs].
      + cbn [flat_map]. simpl (zrun _ []). apply Hc; auto.
      + inversion Hf as [| |? ? ? Hd Hf']; subst.
        destruct (preorder_head d) as (xs & Ex).
        assert (E : flat_map preorder (d :: cs) = t_val d :: (xs ++ flat_map preorder cs)).
        { simpl. now rewrite Ex. }
        rewrite E.
        rewrite (zrun_head _ _ _ ((v, ts ++ [c]) :: F)) by (apply Hc; auto).
        rewrite <- E.
        replace (ts ++ c :: d :: cs) with ((ts ++ [c]) ++ d :: cs) by now rewrite <- app_assoc.
        apply IH; auto.
  Qed.
  Lemma zrun_tree : forall t : tree, zindented t -> forall v ts F l,
      (lev v < lev (t_val t))%Z -> (l <= lev (t_val t))%Z ->
      zpop l [] (zrun ((v, ts) :: F) (preorder t)) = zpop l [] ((v, ts ++ [t]) :: F).
  Proof.
    apply (tree_ind' (fun t => zindented t -> forall v ts F l,
      (lev v < lev (t_val t))%Z -> (l <= lev (t_val t))%Z ->
      zpop l [] (zrun ((v, ts) :: F) (preorder t)) = zpop l [] ((v, ts ++ [t]) :: F))).
    intros a cs IH Hz v ts F l Hv Hl. inversion Hz as [? ? Ha Hf Hcs]; subst. simpl t_val in *.
    cbn [preorder]. change (zrun ((v, ts) :: F) (a :: flat_map preorder cs)) with
      (zrun ((a, []) :: zpop (lev a) [] ((v, ts) :: F)) (flat_map preorder cs)).
    rewrite zpop_top by auto. rewrite zrun_forest with (cs := cs); auto.
    - simpl app. apply zpop_pop. auto.
    - rewrite Forall_forall in *. intros t Ht. apply IH; auto.
    - eapply Forall_impl; [|exact Ha]. simpl. intros; lia.
  Qed.
  Lemma zrun_closed : forall root (f : list tree), zfalling f -> Forall zindented f ->
      Forall (fun c => (lev root < lev (t_val c))%Z) f ->
      zclose (zrun [(root, [])] (flat_map preorder f)) [] = Some (Node root f).
  Proof.
    intros root f Hf Hi Hr.
    rewrite <- (zclose_zpop _ (lev root)). rewrite zrun_forest with (cs := f); auto.
    - simpl. now rewrite !app_nil_r.
    - eapply Forall_impl; [|exact Hi]. intros t Ht. now apply zrun_tree.
    - eapply Forall_impl; [|exact Hr]. simpl. intros; lia.
  Qed.

  (** ** Parents *)
  (** The position in pre-order of the top of the stack ([None] for the root). *)
  Definition ztop (F : frames) : option nat :=
    match F with
    | [] => None
    | [_] => None
    | _ :: F' => Some (zsize F' - 1)
    end.
  Fixpoint zparents (F : frames) : list (option nat) :=
    match F with
    | [] => []
    | [(_, ts)] => forest_parents None 0 ts
    | (v, ts) :: F' => zparents F' ++ ztop F' :: forest_parents (Some (zsize F' - 1)) (zsize F') ts
    end.
  Fixpoint zvals (F : frames) : list A :=
    match F with
    | [] => []
    | [(_, ts)] => flat_map preorder ts
    | (v, ts) :: F' => zvals F' ++ v :: flat_map preorder ts
    end.

  Lemma forest_parents_app : forall (a b : list tree) up k,
      forest_parents up k (a ++ b) = forest_parents up k a ++ forest_parents up (k + forest_size a) b.
  Proof.
    induction a as [|t a IH]; intros b up k.
    - simpl. unfold forest_size. simpl. now rewrite Nat.add_0_r.
    - cbn [app forest_parents]. rewrite IH, <- app_assoc. do 3 f_equal.
      unfold forest_size. simpl. lia.
  Qed.
  Lemma tree_parents_node : forall v (ts : list tree) up k,
      tree_parents up k (Node v ts) = up :: forest_parents (Some k) (S k) ts.
  Proof.
    intros v ts up k. cbn [tree_parents]. f_equal. generalize (S k). generalize k. 
    induction ts as [|t ts IH]; intros p q; auto.
    cbn [forest_parents]. f_equal. apply IH.
  Qed.
  Lemma forest_size_app' : forall a b : list tree, forest_size (a ++ b) = forest_size a + forest_size b.
  Proof. apply forest_size_app. Qed.
  Lemma zsize_cons : forall (v : A) ts (F : frames), zsize ((v, ts) :: F) = S (forest_size ts) + zsize F.
  Proof. reflexivity. Qed.

  Lemma zparents_pop : forall x xs v ts (F : frames),
      zparents ((x, xs) :: (v, ts) :: F) = zparents ((v, ts ++ [Node x xs]) :: F).
  Proof.
    intros. destruct F as [|f F].
    - cbn [zparents ztop]. rewrite forest_parents_app. cbn [forest_parents].
      rewrite tree_parents_node, app_nil_r. rewrite zsize_cons. unfold zsize. cbn [fold_right].
      replace (S (forest_size ts) + 0 - 1) with (0 + forest_size ts) by lia.
      replace (S (forest_size ts) + 0) with (S (0 + forest_size ts)) by lia. reflexivity.
    - remember (f :: F) as G eqn:EG.
      assert (HZ : zsize G <> 0) by (subst G; destruct f; rewrite zsize_cons; lia).
      assert (E1 : forall ts, zparents ((v, ts) :: G) =
                zparents G ++ ztop G :: forest_parents (Some (zsize G - 1)) (zsize G) ts) by (subst G; reflexivity).
      assert (E2 : zparents ((x, xs) :: (v, ts) :: G) = zparents ((v, ts) :: G) ++ ztop ((v, ts) :: G) ::
            forest_parents (Some (zsize ((v, ts) :: G) - 1)) (zsize ((v, ts) :: G)) xs) by reflexivity.
      rewrite E2, !E1. rewrite <- app_assoc. f_equal. cbn [app]. f_equal.
      rewrite forest_parents_app. f_equal. cbn [forest_parents]. rewrite tree_parents_node, app_nil_r.
      rewrite zsize_cons. replace (ztop ((v, ts) :: G)) with (Some (zsize G - 1)) by (subst G; reflexivity).
      replace (S (forest_size ts) + zsize G - 1) with (zsize G + forest_size ts) by lia.
      replace (S (forest_size ts) + zsize G) with (S (zsize G + forest_size ts)) by lia. reflexivity.
  Qed.
  Lemma zvals_pop : forall x xs v ts F,
      zvals ((x, xs) :: (v, ts) :: F) = zvals ((v, ts ++ [Node x xs]) :: F).
  Proof.
    intros. destruct F as [|f F]; cbn [zvals]; rewrite flat_map_app; cbn [flat_map preorder];
      rewrite app_nil_r; rewrite <- ?app_assoc; reflexivity.
  Qed.
  Lemma zlists_close : forall n F t, length F = n -> zclose F [] = Some t ->
      zparents F = forest_parents None 0 (t_children t) /\ zvals F = flat_map preorder (t_children t).
  Proof.
    induction n as [|n IH]; intros F t Hn Hc; destruct F as [|[v ts] [|[w ws] F]]; simpl in Hn; try lia.
    - discriminate.
    - simpl in Hc. rewrite app_nil_r in Hc. inversion Hc; subst. auto.
    - rewrite zclose_pop in Hc. rewrite zparents_pop, zvals_pop. apply IH; auto.
  Qed.

  (** Popping keeps the lists; what is popped was indented at least [l]. *)
  Fixpoint zfind (l : Z) (F : frames) : option nat :=
    match F with
    | [] => None
    | [_] => None
    | (v, _) :: F' => if Z.ltb (lev v) l then Some (zsize F' - 1) else zfind l F'
    end.
  Lemma zpop_lists : forall n F l, length F = n ->
      zparents (zpop l [] F) = zparents F /\ zvals (zpop l [] F) = zvals F /\
      ztop (zpop l [] F) = zfind l F /\ zsize (zpop l [] F) = zsize F /\
      (forall m, (m <= l)%Z -> zfind m (zpop l [] F) = zfind m F).
  Proof.
    induction n as [|n IH]; intros F l Hn; destruct F as [|[v ts] [|[w ws] F]]; simpl in Hn; try lia.
    - simpl. auto.
    - simpl. rewrite app_nil_r. auto.
    - destruct (Z.leb_spec l (lev v)) as [Hle|Hlt].
      + rewrite zpop_pop by auto. rewrite zparents_pop, zvals_pop.
        destruct (IH ((w, ws ++ [Node v ts]) :: F) l) as (H1 & H2 & H3 & H4 & H5); [simpl in *; lia|].
        rewrite H1, H2, H3, H4. split; auto. split; auto.
        assert (HFD : forall m, zfind m ((w, ws ++ [Node v ts]) :: F) = zfind m ((w, ws) :: F)).
        { intros m. destruct F; reflexivity. }
        split; [|split].
        * rewrite HFD. cbn [zfind]. destruct (Z.ltb_spec (lev v) l); [lia|reflexivity].
        * rewrite !zsize_cons, forest_size_app. unfold forest_size at 2. simpl.
          unfold forest_size. lia.
        * intros m Hm. rewrite H5, HFD by auto. cbn [zfind].
          destruct (Z.ltb_spec (lev v) m); [lia|reflexivity].
      + rewrite zpop_top by auto. split; auto. split; auto. split; [|auto].
        cbn [zfind ztop]. destruct (Z.ltb_spec (lev v) l); [reflexivity|lia].
  Qed.

  (** The last position with a smaller indentation. *)
  Fixpoint last_less (l : Z) (k : nat) (acc : option nat) (xs : list A) : option nat :=
    match xs with
    | [] => acc
    | x :: r => last_less l (S k) (if Z.ltb (lev x) l then Some k else acc) r
    end.
  Lemma last_less_snoc : forall xs l k acc x,
      last_less l k acc (xs ++ [x]) = if Z.ltb (lev x) l then Some (k + length xs) else last_less l k acc xs.
  Proof.
    induction xs as [|y xs IH]; intros l k acc x; simpl.
    - rewrite Nat.add_0_r. reflexivity.
    - rewrite IH. rewrite Nat.add_succ_r. reflexivity.
  Qed.

  Lemma zstep_lists : forall F x, F <> [] ->
      zvals (zstep F x) = zvals F ++ [x] /\ zparents (zstep F x) = zparents F ++ [zfind (lev x) F] /\
      zsize (zstep F x) = S (zsize F).
  Proof.
    intros F x HF. unfold zstep. destruct (zpop_lists _ F (lev x) eq_refl) as (H1 & H2 & H3 & H4 & _).
    pose proof (zpop_nonempty F (lev x) [] HF) as Hne.
    destruct (zpop (lev x) [] F) as [|g G] eqn:EG; [congruence|].
    split; [|split].
    - change (zvals ((x, []) :: g :: G)) with (zvals (g :: G) ++ [x]). now rewrite H2.
    - change (zparents ((x, []) :: g :: G)) with (zparents (g :: G) ++ [ztop (g :: G)]). now rewrite H1, H3.
    - rewrite zsize_cons, H4. reflexivity.
  Qed.

  Definition near (F : frames) : Prop :=
    zsize F = S (length (zvals F)) /\
    forall l, zfind l F = last_less l 0 None (zvals F).
  Lemma near_step : forall F x, F <> [] -> near F -> near (zstep F x).
  Proof.
    intros F x HF (HZ & HN). destruct (zstep_lists F x HF) as (H1 & H2 & H3). split.
    - rewrite H3, HZ, H1, app_length. simpl. lia.
    - intros l. rewrite H1, last_less_snoc. unfold zstep.
      destruct (zpop_lists _ F (lev x) eq_refl) as (_ & _ & _ & K4 & K5).
      pose proof (zpop_nonempty F (lev x) [] HF) as Hne.
      destruct (zpop (lev x) [] F) as [|g G] eqn:EG; [congruence|].
      change (zfind l ((x, []) :: g :: G)) with
        (if Z.ltb (lev x) l then Some (zsize (g :: G) - 1) else zfind l (g :: G)).
      destruct (Z.ltb_spec (lev x) l).
      + rewrite K4, HZ. f_equal. lia.
      + rewrite K5 by lia. apply HN.
  Qed.

  (** The parents of the nodes read so far are the nearest smaller ones. *)
  Definition parents_right (F : frames) : Prop :=
    zparents F = map (fun i => match nth_error (zvals F) i with
                               | Some x => last_less (lev x) 0 None (firstn i (zvals F))
                               | None => None
                               end) (seq 0 (length (zvals F))).
  Lemma right_step : forall F x, F <> [] -> near F -> parents_right F -> parents_right (zstep F x).
  Proof.
    intros F x HF (HZ & HN) HP. destruct (zstep_lists F x HF) as (H1 & H2 & H3).
    unfold parents_right. rewrite H1, H2, app_length. simpl length. rewrite Nat.add_1_r, seq_S, map_app.
    f_equal.
    - rewrite HP. apply map_ext_in. intros i Hi. apply in_seq in Hi.
      rewrite nth_error_app1 by lia. rewrite firstn_app.
      replace (i - length (zvals F)) with 0 by lia. simpl. now rewrite app_nil_r.
    - simpl. rewrite nth_error_app2, Nat.sub_diag by lia. simpl.
      rewrite firstn_app, firstn_all, Nat.sub_diag. simpl. rewrite app_nil_r. now rewrite HN.
  Qed.
  Lemma zrun_right : forall xs F, F <> [] -> near F -> parents_right F ->
      near (zrun F xs) /\ parents_right (zrun F xs) /\ zvals (zrun F xs) = zvals F ++ xs.
  Proof.
    induction xs as [|x xs IH]; intros F HF HN HP.
    - simpl. rewrite app_nil_r. auto.
    - change (zrun F (x :: xs)) with (zrun (zstep F x) xs).
      destruct (IH (zstep F x)) as (H1 & H2 & H3); auto using zstep_nonempty, near_step, right_step.
      split; auto. split; auto. rewrite H3. destruct (zstep_lists F x HF) as (-> & _).
      now rewrite <- app_assoc.
  Qed.
  Lemma zrun_init : forall root xs,
      parents_right (zrun [(root, [])] xs) /\ zvals (zrun [(root, [])] xs) = xs.
  Proof.
    intros root xs. destruct (zrun_right xs [(root, [])]) as (_ & H2 & H3).
    - congruence.
    - split; [reflexivity|]. intros l. reflexivity.
    - reflexivity.
    - auto.
  Qed.

  Lemma last_less_bounds : forall xs l k acc j, last_less l k acc xs = Some j ->
      acc = Some j \/ (k <= j < k + length xs).
  Proof.
    induction xs as [|x xs IH]; intros l k acc j H; simpl in H; auto.
    apply IH in H. simpl. destruct H as [H|H]; [|lia].
    destruct (Z.ltb (lev x) l); [inversion H; lia|auto].
  Qed.
  Lemma last_less_spec : forall (d : A) xs l p, last_less l 0 None xs = p ->
      match p with
      | Some j => j < length xs /\ (lev (nth j xs d) < l)%Z /\
                  (forall k, j < k -> k < length xs -> (l <= lev (nth k xs d))%Z)
      | None => forall k, k < length xs -> (l <= lev (nth k xs d))%Z
      end.
  Proof.
    intros d xs. induction xs as [|x xs IH] using rev_ind; intros l p H.
    - simpl in H. subst. intros k Hk. simpl in Hk. lia.
    - rewrite last_less_snoc in H. simpl in H. rewrite app_length. simpl length.
      assert (HX : nth (length xs) (xs ++ [x]) d = x) by (rewrite app_nth2, Nat.sub_diag; auto).
      destruct (Z.ltb_spec (lev x) l) as [Hl|Hl].
      + subst p. split; [lia|]. split; [now rewrite HX|]. intros k H1 H2. lia.
      + specialize (IH l p H). destruct p as [j|].
        * destruct IH as (H1 & H2 & H3). split; [lia|]. split; [rewrite app_nth1; auto|].
          intros k K1 K2. destruct (Nat.eq_dec k (length xs)) as [->|Hk]; [now rewrite HX|].
          rewrite app_nth1 by lia. apply H3; lia.
        * intros k K. destruct (Nat.eq_dec k (length xs)) as [->|Hk]; [now rewrite HX|].
          rewrite app_nth1 by lia. apply IH; lia.
  Qed.
End Levels.

(** A forest is determined by its nodes in pre-order and their parents. *)
Definition outside (up : option nat) (k : nat) (r : list (option nat)) : Prop :=
  match r with
  | [] => True
  | p :: _ => p <> up /\ match p with Some j => j < k | None => True end
  end.
Lemma parents_length : forall A (t : tree A) up k, length (tree_parents up k t) = tree_size t.
Proof.
  intros A. apply (tree_ind' (fun t => forall up k, length (tree_parents up k t) = tree_size t)).
  intros a cs H up k. rewrite tree_parents_node. simpl. f_equal. generalize (Some k), (S k). 
  induction H; intros u q; simpl; auto. rewrite app_length, H, IHForall. reflexivity.
Qed.
Lemma preorder_length : forall A (t : tree A), length (preorder t) = tree_size t.
Proof.
  intros A. apply tree_ind'. intros a cs H. simpl. f_equal.
  induction H; simpl; auto. now rewrite app_length, H, IHForall.
Qed.
Lemma forest_parents_inj_aux : forall A n (f g : list (tree A)) up k r r' (v v' : list A),
    forest_size f <= n ->
    (match up with Some j => j < k | None => True end) ->
    forest_parents up k f ++ r = forest_parents up k g ++ r' ->
    flat_map preorder f ++ v = flat_map preorder g ++ v' ->
    outside up k r -> outside up k r' ->
    f = g /\ r = r' /\ v = v'.
Proof.
  induction n as [|n IH]; intros f g up k r r' v v' Hn Hup HE HV Hr Hr'.
  - destruct f as [|[a cs] f]; [|unfold forest_size in Hn; simpl in Hn; lia].
    destruct g as [|[b ds] g]; [auto|].
    cbn [forest_parents] in HE. rewrite tree_parents_node in HE. simpl in HE. subst r. simpl in Hr. tauto.
  - destruct f as [|[a cs] f], g as [|[b ds] g]; [auto| | |].
    + cbn [forest_parents] in HE. rewrite tree_parents_node in HE. simpl in HE. subst r. simpl in Hr. tauto.
    + cbn [forest_parents] in HE. rewrite tree_parents_node in HE. simpl in HE. subst r'. simpl in Hr'. tauto.
    + cbn [forest_parents] in HE. rewrite !tree_parents_node in HE.
      cbn [app flat_map preorder] in HE, HV. inversion HE as [HE']. inversion HV as [[Hab HV']]. subst b.
      clear HE HV. rewrite <- !app_assoc in HE'. rewrite <- !app_assoc in HV'.
      unfold forest_size in Hn. simpl in Hn. fold (forest_size f) in Hn. fold (forest_size cs) in Hn.
      assert (HO : forall (h : list (tree A)) s q, outside up k s -> outside (Some k) (S k) (forest_parents up q h ++ s)).
      { intros [|[e es] h] s q Hs.
        - simpl. destruct s as [|p s]; simpl in *; auto. destruct Hs as [H1 H2].
          split; [|destruct p; auto]. intros ->. lia.
        - cbn [forest_parents]. rewrite tree_parents_node. simpl. split; [|destruct up; auto; lia].
          intros ->. lia. }
      destruct (IH cs ds (Some k) (S k) (forest_parents up (k + tree_size (Node a cs)) f ++ r)
                  (forest_parents up (k + tree_size (Node a ds)) g ++ r')
                  (flat_map preorder f ++ v) (flat_map preorder g ++ v')) as (-> & HE2 & HV2); auto; try lia.
      destruct (IH f g up (k + tree_size (Node a ds)) r r' v v') as (-> & -> & ->); auto; try lia.
      * destruct up; auto; lia.
      * destruct r as [|p r]; simpl in *; auto. destruct Hr as [H1 H2]. split; auto. destruct p; auto; lia.
      * destruct r' as [|p r']; simpl in *; auto. destruct Hr' as [H1 H2]. split; auto. destruct p; auto; lia.
Qed.
Lemma forest_parents_inj : forall A (f g : list (tree A)),
    forest_parents None 0 f = forest_parents None 0 g -> flat_map preorder f = flat_map preorder g -> f = g.
Proof.
  intros A f g H1 H2.
  destruct (forest_parents_inj_aux A (forest_size f) f g None 0 [] [] [] []) as (E & _); simpl; auto.
  - now rewrite !app_nil_r.
  - now rewrite !app_nil_r.
Qed.
