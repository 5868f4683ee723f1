(** Proofs about the plan panel. *)
From Coq Require Import String List NArith ZArith QArith Qminmax Bool Lia Arith Permutation Lqa.
From Verif Require Import Base Dec ExplainTree ExplainSpec ExplainTreeProofs IndexBuild PlanView PlanViewSpec.
Import ListNotations.
Local Open Scope nat_scope.

Lemma Forall2_len : forall A B (R : A -> B -> Prop) l l', Forall2 R l l' -> length l = length l'.
Proof. induction 1; cbn; congruence. Qed.

(** ** The text *)
Section Texts.
  Context {A : Type}.
  Notation node := (tree (nat * A)).
  Definition go_on (f : nat) (work : list node) (visited : list nat) (res : list A) :=
    match work with
    | [] => text_loop f None [] visited res
    | c :: r => text_loop f (Some c) r visited res
    end.
  Definition ids (l : list node) := map fst (flat_map preorder l).
  Definition vals (l : list node) := map snd (flat_map preorder l).

  Lemma push_rev : forall (cs st : list node), fold_left (fun st c => c :: st) (rev cs) st = cs ++ st.
  Proof.
    intros cs st. rewrite <- (rev_involutive cs) at 2. generalize (rev cs). clear cs. intros cs. revert st.
    induction cs as [|c cs IH]; intros st; cbn [fold_left rev app]; [reflexivity|].
    rewrite IH, <- app_assoc. reflexivity.
  Qed.
  Lemma go_on_step : forall f o a cs rest visited res,
      go_on (S f) (Node (o, a) cs :: rest) visited res =
      if existsb (Nat.eqb o) visited then go_on f rest (visited ++ [o]) res
      else go_on f (cs ++ rest) (visited ++ [o]) (res ++ [a]).
  Proof.
    intros. cbn [go_on text_loop]. rewrite push_rev. destruct (existsb _ _); [destruct rest; reflexivity|].
    destruct (cs ++ rest); reflexivity.
  Qed.
  Lemma existsb_in : forall o l, existsb (Nat.eqb o) l = true <-> In o l.
  Proof.
    intros. rewrite existsb_exists. split; [intros (x & H & E); apply Nat.eqb_eq in E; now subst|].
    intros H. exists o. now rewrite Nat.eqb_refl.
  Qed.
  Lemma NoDup_split : forall (a b : list nat), NoDup (a ++ b) ->
      NoDup a /\ NoDup b /\ forall x, In x a -> ~ In x b.
  Proof.
    induction a as [|x a IH]; intros b H; cbn in *; [split; [constructor|split; [auto|easy]]|].
    inversion H as [|y z H1 H2]; subst. destruct (IH _ H2) as (I1 & I2 & I3). split; [|split; auto].
    - constructor; auto. intros K. apply H1, in_or_app. auto.
    - intros y [->|Hy]; [intros K; apply H1, in_or_app; auto|auto].
  Qed.

  Definition walks (t : node) := forall f rest visited res,
      NoDup (ids [t]) -> (forall x, In x (ids [t]) -> ~ In x visited) ->
      go_on (nodes t + f) (t :: rest) visited res = go_on f rest (visited ++ ids [t]) (res ++ vals [t]).
  Lemma ids_cons : forall t l, ids (t :: l) = ids [t] ++ ids l.
  Proof. intros. unfold ids. cbn [flat_map]. rewrite app_nil_r, map_app. reflexivity. Qed.
  Lemma vals_cons : forall t l, vals (t :: l) = vals [t] ++ vals l.
  Proof. intros. unfold vals. cbn [flat_map]. rewrite app_nil_r, map_app. reflexivity. Qed.
  Lemma ids_node : forall o a cs, ids [Node (o, a) cs] = o :: ids cs.
  Proof. intros. unfold ids. cbn. now rewrite app_nil_r. Qed.
  Lemma vals_node : forall o a cs, vals [Node (o, a) cs] = a :: vals cs.
  Proof. intros. unfold vals. cbn. now rewrite app_nil_r. Qed.
  Lemma walks_all : forall l, Forall walks l -> forall f rest visited res,
      NoDup (ids l) -> (forall x, In x (ids l) -> ~ In x visited) ->
      go_on (list_sum (map nodes l) + f) (l ++ rest) visited res =
      go_on f rest (visited ++ ids l) (res ++ vals l).
  Proof.
    induction 1 as [|t l Ht Hl IH]; intros f rest visited res ND NI.
    - cbn. now rewrite !app_nil_r.
    - rewrite ids_cons in ND, NI. destruct (NoDup_split _ _ ND) as (N1 & N2 & N3).
      change (list_sum (map nodes (t :: l))) with (nodes t + list_sum (map nodes l)).
      rewrite <- Nat.add_assoc. cbn [app]. rewrite Ht; auto.
      + rewrite IH; auto.
        * rewrite (ids_cons t l), (vals_cons t l), !app_assoc. reflexivity.
        * intros x Hx K. apply in_app_or in K. destruct K as [K|K].
          { apply (NI x); auto. apply in_or_app. auto. }
          { apply (N3 x); auto. }
      + intros x Hx. apply NI, in_or_app. auto.
  Qed.
  Lemma walks_tree : forall t, walks t.
  Proof.
    apply tree_ind'. intros [o a] cs HF f rest visited res ND NI. rewrite ids_node in *. rewrite vals_node.
    change (nodes (Node (o, a) cs)) with (S (list_sum (map nodes cs))). cbn [Nat.add]. rewrite go_on_step.
    inversion ND as [|x y H1 H2]; subst.
    destruct (existsb (Nat.eqb o) visited) eqn:E; [apply existsb_in in E; exfalso; apply (NI o); [now left|auto]|].
    rewrite walks_all; auto.
    - f_equal; rewrite <- app_assoc; reflexivity.
    - intros x Hx K. apply in_app_or in K. destruct K as [K|[->|[]]].
      + apply (NI x); [now right|auto].
      + auto.
  Qed.

  Lemma text_order_spec : forall l visited res, NoDup (ids l) -> (forall x, In x (ids l) -> ~ In x visited) ->
      text_order l visited res = Some (res ++ vals l).
  Proof.
    induction l as [|t l IH]; intros visited res ND NI; [cbn; now rewrite app_nil_r|].
    rewrite ids_cons in ND, NI. destruct (NoDup_split _ _ ND) as (N1 & N2 & N3).
    cbn [text_order].
    assert (E : exists v', text_loop (S (S (nodes t))) (Some t) [t] visited res = Some (v', res ++ vals [t]) /\
                           forall x, In x v' -> In x visited \/ In x (ids [t])).
    { change (text_loop (S (S (nodes t))) (Some t) [t] visited res) with (go_on (S (S (nodes t))) (t :: [t]) visited res).
      replace (S (S (nodes t))) with (nodes t + 2) by lia.
      rewrite walks_tree; auto. 2:{ intros x Hx. apply NI, in_or_app. auto. }
      destruct t as [[o a] cs]. rewrite go_on_step.
      assert (V : existsb (Nat.eqb o) (visited ++ ids [Node (o, a) cs]) = true).
      { apply existsb_in, in_or_app. right. rewrite ids_node. now left. }
      rewrite V. cbn [go_on text_loop]. eexists. split; [reflexivity|].
      intros x Hx. apply in_app_or in Hx. destruct Hx as [Hx|[->|[]]].
      - now apply in_app_or in Hx.
      - right. rewrite ids_node. now left. }
    destruct E as (v' & E & HV). rewrite E. rewrite IH; auto.
    - rewrite (vals_cons t l), app_assoc. reflexivity.
    - intros x Hx K. destruct (HV _ K) as [K1|K1].
      + apply (NI x); auto. apply in_or_app. auto.
      + apply (N3 x); auto.
  Qed.
  Lemma shown_texts_spec : forall (text : A -> gostring) (l : list node), distinct_objects l ->
      shown_texts text l = Some (map (fun d => text (snd d)) (flat_map preorder l)).
  Proof.
    intros text l H. unfold shown_texts. rewrite text_order_spec; auto.
    cbn [option_map app]. unfold vals. now rewrite map_map.
  Qed.
End Texts.

(** ** The timeline *)
Section Timeline.
  Context {D : Type} (end_time : D -> Q -> Q).
  Definition keyed (b : bar D) := (b_num b, b).

  Lemma js_max_spec : forall l, l <> [] -> (forall e, In e l -> (e <= js_max l)%Q) /\ exists e, In e l /\ (e == js_max l)%Q.
  Proof.
    intros [|x l] H; [congruence|]. clear H. cbn [js_max].
    revert x. induction l as [|y l IH]; intros x; cbn [fold_left].
    - split; [intros e [->|[]]; apply Qle_refl|]. exists x. split; [now left|reflexivity].
    - destruct (IH (Qmax x y)) as (H1 & e & H2 & H3). split.
      + assert (HM : (Qmax x y <= fold_left Qmax l (Qmax x y))%Q) by (apply H1; now left).
        intros e' [->|[->|Hin]].
        * eapply Qle_trans; [apply Q.le_max_l|exact HM].
        * eapply Qle_trans; [apply Q.le_max_r|exact HM].
        * apply H1. now right.
      + destruct H2 as [<-|H2].
        * destruct (Q.max_spec x y) as [[_ E]|[_ E]]; rewrite E in H3 at 1.
          { exists y. split; [right; now left|exact H3]. }
          { exists x. split; [now left|exact H3]. }
        * exists e. split; [right; now right|exact H3].
  Qed.

  Definition visited_as (t : tree D) (next : nat) (r : list (nat * bar D) * tree nat * (nat * Q)) : Prop :=
    exists bt, drawn end_time t bt /\ Forall bar_label_ok (preorder bt) /\ (0 <= b_hi (t_val bt))%Q /\
      map b_num (preorder bt) = seq next (length (preorder bt)) /\
      let '(recs, x, (next', fin)) := r in
      recs = map keyed (preorder bt) /\ preorder x = map b_num (preorder bt) /\
      next' = next + length (preorder bt) /\ (fin == b_hi (t_val bt))%Q.

  Lemma label_ok : forall n, let x := dec_of_N (N.of_nat n) in
      x <> [] /\ forallb is_digit x = true /\ digits_val 0 x = N.of_nat n.
  Proof. intros n x. subst x. split; [apply dec_of_N_nonempty|split; [apply dec_of_N_digits|apply dec_of_N_val]]. Qed.

  Lemma visit_spec : forall t next, visited_as t next (visit end_time t next).
  Proof.
    apply (tree_ind' (fun t => forall next, visited_as t next (visit end_time t next))).
    intros d cs HF next. cbn [visit].
    match goal with |- context [?g cs (S next)] => set (go := g) end.
    assert (HG : forall n, exists bts recs xs fins,
               go cs n = (recs, xs, (n + length (flat_map preorder bts), fins)) /\
               Forall2 (drawn end_time) cs bts /\ Forall bar_label_ok (flat_map preorder bts) /\
               map b_num (flat_map preorder bts) = seq n (length (flat_map preorder bts)) /\
               recs = map keyed (flat_map preorder bts) /\
               flat_map preorder xs = map b_num (flat_map preorder bts) /\
               Forall (fun b => 0 <= b_hi (t_val b))%Q bts /\
               Forall2 (fun f b => f == b_hi (t_val b))%Q fins bts).
    { induction HF as [|c cs' HC HF IH]; intros n.
      - exists [], [], [], []. cbn. rewrite Nat.add_0_r. repeat (split; [auto|]). auto.
      - specialize (HC n). destruct (visit end_time c n) as [[r1 x1] [n1 f1]] eqn:EV.
        destruct HC as (bt & H1 & H2 & H3 & H4 & H5 & H6 & H7 & H8). subst n1.
        destruct (IH (n + length (preorder bt))) as (bts & recs & xs & fins & E & I1 & I2 & I3 & I4 & I5 & I6 & I7).
        exists (bt :: bts), (r1 ++ recs), (x1 :: xs), (f1 :: fins). unfold go. cbn [visit]. rewrite EV. fold go. rewrite E.
        cbn [flat_map]. rewrite app_length. split; [f_equal; f_equal; lia|].
        split; [now constructor|]. split; [now apply Forall_app|].
        split; [rewrite map_app, H4, I3; symmetry; apply seq_app|].
        split; [subst; now rewrite map_app|]. split; [rewrite H6, I5; now rewrite map_app|].
        split; now constructor. }
    destruct (HG (S next)) as (bts & recs & xs & fins & E & I1 & I2 & I3 & I4 & I5 & I6 & I7).
    rewrite E. cbv zeta.
    set (start := match cs with [] => 0%Q | _ => js_max fins end).
    set (e := Qmax (end_time d start) start).
    set (b := {| b_x := _ |}).
    assert (S0 : (0 <= start)%Q).
    { unfold start. destruct cs as [|c cs']; [apply Qle_refl|].
      inversion I1; subst. inversion I6 as [|b1 bl P1 P2]; subst. inversion I7 as [|f1 b2 fl bl' P3 P4]; subst.
      eapply Qle_trans; [exact P1|]. rewrite <- P3. apply js_max_spec; [discriminate|now left]. }
    assert (SE : (start <= e)%Q) by apply Q.le_max_r.
    exists (Node b bts). cbn [preorder t_val]. split; [|split; [|split; [|split]]].
    - constructor; auto. exists start.
      assert (LN : length fins = length bts) by (eapply Forall2_len; eauto).
      assert (LC : length cs = length bts) by (eapply Forall2_len; eauto).
      assert (HI : forall x, In x (map (fun c => b_hi (t_val c)) bts) -> exists f, In f fins /\ (f == x)%Q).
      { intros x Hx. apply in_map_iff in Hx. destruct Hx as (b0 & <- & Hb). clear - I7 Hb.
        induction I7 as [|f b1 fs bs HE HF IH]; [easy|]. destruct Hb as [->|Hb].
        - exists f. split; [now left|exact HE].
        - destruct (IH Hb) as (f' & K1 & K2). exists f'. split; [now right|exact K2]. }
      assert (HJ : forall f, In f fins -> exists x, In x (map (fun c => b_hi (t_val c)) bts) /\ (f == x)%Q).
      { intros f Hf. clear - I7 Hf.
        induction I7 as [|f1 b1 fs bs HE HF IH]; [easy|]. destruct Hf as [->|Hf].
        - exists (b_hi (t_val b1)). split; [now left|exact HE].
        - destruct (IH Hf) as (x & K1 & K2). exists x. split; [now right|exact K2]. }
      assert (NE : cs <> [] -> fins <> []).
      { intros K. destruct cs; [congruence|]. destruct fins; [|discriminate]. rewrite <- LN in LC. discriminate. }
      assert (ST : cs <> [] -> start = js_max fins) by (unfold start; destruct cs; congruence).
      assert (CE : cs = [] \/ cs <> []) by (destruct cs; [now left|right; discriminate]).
      split; [|split; [|split; [|split; [|split; [|split; [|split; [|split; [|split]]]]]]]].
      + intros K. apply map_eq_nil in K. subst bts. destruct cs; [|discriminate LC]. reflexivity.
      + intros K. assert (CN : cs <> []) by (intros ->; destruct bts; [now apply K|discriminate LC]).
        destruct (js_max_spec fins (NE CN)) as (_ & f & F1 & F2).
        destruct (HJ _ F1) as (x & X1 & X2). exists x. split; auto. rewrite (ST CN), <- F2. now symmetry.
      + intros x Hx. destruct (HI _ Hx) as (f & F1 & F2).
        assert (CN : cs <> []) by (intros ->; destruct bts; [easy|discriminate LC]).
        rewrite (ST CN), <- F2. exact (proj1 (js_max_spec fins (NE CN)) _ F1).
      + exact SE.
      + apply Q.le_max_l.
      + cbn [b_hi b b_data]. unfold e. destruct (Q.max_spec (end_time d start) start) as [[_ K]|[_ K]]; rewrite K.
        * left. reflexivity.
        * right. reflexivity.
      + reflexivity.
      + apply Q.le_min_l.
      + cbn [b_hi b_lo b].
        assert (K : (Qmin start (e - (1 # 10000)) <= e - (1 # 10000))%Q) by apply Q.le_min_r.
        revert K. generalize (Qmin start (e - (1 # 10000))). intros m K. lra.
      + cbn [b_hi b_lo b]. destruct (Q.min_spec start (e - (1 # 10000))) as [[_ K]|[_ K]]; rewrite K.
        * left. reflexivity.
        * right. ring.
    - constructor; auto. exact (label_ok next).
    - cbn [b_hi b]. eapply Qle_trans; [exact S0|exact SE].
    - cbn [map length seq b_num b]. now rewrite I3.
    - cbn [map length]. split; [now rewrite I4|]. split; [now rewrite I5|]. split; [lia|].
      cbn [b_hi b]. apply Q.max_r. eapply Qle_trans; [exact S0|exact SE].
  Qed.

  Lemma create_spec : forall l next, exists bts,
      Forall2 (drawn end_time) l bts /\ Forall bar_label_ok (flat_map preorder bts) /\
      map b_num (flat_map preorder bts) = seq next (length (flat_map preorder bts)) /\
      fst (create_x_tree end_time l next) = map keyed (flat_map preorder bts) /\
      flat_map preorder (snd (create_x_tree end_time l next)) = map b_num (flat_map preorder bts).
  Proof.
    induction l as [|t l IH]; intros next; cbn [create_x_tree].
    - exists []. cbn. repeat (split; [auto|]). reflexivity.
    - pose proof (visit_spec t next) as HC. destruct (visit end_time t next) as [[r1 x1] [n1 f1]].
      destruct HC as (bt & H1 & H2 & H3 & H4 & H5 & H6 & H7 & H8). subst n1.
      destruct (IH (next + length (preorder bt))) as (bts & I1 & I2 & I3 & I4 & I5).
      destruct (create_x_tree end_time l (next + length (preorder bt))) as [r2 xs2].
      exists (bt :: bts). cbn [fst snd flat_map] in *. rewrite app_length.
      split; [now constructor|]. split; [now apply Forall_app|].
      split; [rewrite map_app, H4, I3; symmetry; apply seq_app|].
      split; [subst; now rewrite map_app|]. rewrite H6, I5. now rewrite map_app.
  Qed.

  Lemma find_keyed : forall (bs : list (bar D)) b, NoDup (map b_num bs) -> In b bs ->
      find (fun r => Nat.eqb (b_num b) (fst r)) (map keyed bs) = Some (keyed b).
  Proof.
    induction bs as [|c bs IH]; intros b ND Hin; [easy|]. cbn [map find keyed fst]. inversion ND as [|x y N1 N2]; subst.
    destruct Hin as [->|Hin]; [now rewrite Nat.eqb_refl|].
    destruct (Nat.eqb (b_num b) (b_num c)) eqn:E; [|auto].
    apply Nat.eqb_eq in E. elim N1. rewrite <- E. now apply in_map.
  Qed.
  Lemma get_keyed : forall (bs : list (bar D)) b, NoDup (map b_num bs) -> In b bs ->
      get_from_x (map keyed bs) (b_num b) = Ok b.
  Proof.
    intros bs b ND Hin. unfold get_from_x. rewrite <- map_rev. rewrite find_keyed; auto.
    - rewrite map_rev. now apply NoDup_rev.
    - now apply in_rev in Hin.
  Qed.
  Lemma collect_node_spec : forall recs (g : nat -> bar D) x,
      (forall n, In n (preorder x) -> get_from_x recs n = Ok (g n)) ->
      collect_node recs x = Ok (map g (preorder x)).
  Proof.
    intros recs g. apply (tree_ind' (fun x => (forall n, In n (preorder x) -> get_from_x recs n = Ok (g n)) ->
      collect_node recs x = Ok (map g (preorder x)))).
    intros n cs HF HG. cbn [collect_node preorder map]. rewrite HG by now left. cbn [obind].
    match goal with |- (do bs <- ?go cs; _) = _ => set (loop := go) end.
    assert (E : loop cs = Ok (map g (flat_map preorder cs))).
    { assert (HG' : forall k, In k (flat_map preorder cs) -> get_from_x recs k = Ok (g k)) by (intros; apply HG; now right).
      clear HG. induction HF as [|c cs' HC HF IH]; [reflexivity|]. unfold loop. cbn [flat_map] in *. fold loop.
      rewrite HC by (intros; apply HG'; apply in_or_app; auto). cbn [obind].
      rewrite IH by (intros; apply HG'; apply in_or_app; auto). cbn [obind]. now rewrite map_app. }
    rewrite E. reflexivity.
  Qed.
  Lemma collect_nodes_spec : forall recs (g : nat -> bar D) xs,
      (forall n, In n (flat_map preorder xs) -> get_from_x recs n = Ok (g n)) ->
      collect_nodes recs xs = Ok (map g (flat_map preorder xs)).
  Proof.
    induction xs as [|c xs IH]; intros HG; [reflexivity|]. cbn [collect_nodes flat_map] in *.
    rewrite (collect_node_spec recs g) by (intros; apply HG; apply in_or_app; auto). cbn [obind].
    rewrite IH by (intros; apply HG; apply in_or_app; auto). cbn [obind]. now rewrite map_app.
  Qed.
  Lemma collect_keyed : forall bs xs, NoDup (map b_num bs) -> flat_map preorder xs = map b_num bs ->
      collect_nodes (map keyed bs) xs = Ok bs.
  Proof.
    intros bs xs ND E. destruct bs as [|b0 bs'].
    - cbn in *. destruct xs as [|[a cs] xs]; [reflexivity|discriminate E].
    - set (bs := b0 :: bs') in *.
      set (g := fun n => match find (fun b => Nat.eqb n (b_num b)) bs with Some b => b | None => b0 end).
      assert (GB : forall b, In b bs -> g (b_num b) = b).
      { intros b Hb. unfold g. clear - ND Hb. induction bs as [|c l IH]; [easy|]. cbn [find].
        inversion ND as [|x y N1 N2]; subst. destruct Hb as [->|Hb]; [now rewrite Nat.eqb_refl|].
        destruct (Nat.eqb (b_num b) (b_num c)) eqn:K; [|auto].
        apply Nat.eqb_eq in K. elim N1. rewrite <- K. now apply in_map. }
      rewrite (collect_nodes_spec _ g).
      + f_equal. rewrite E, map_map. rewrite <- (map_id bs) at 2. apply map_ext_in. auto.
      + intros n Hn. rewrite E in Hn. apply in_map_iff in Hn. destruct Hn as (b & <- & Hb).
        rewrite GB by auto. now apply get_keyed.
  Qed.

  Lemma sorted_seq : forall (l : list (bar D)) n bs, Permutation l bs -> map b_num bs = seq n (length bs) ->
      sorted_by bar_less l -> l = bs.
  Proof.
    induction l as [|x l IH]; intros n bs P E S.
    - apply Permutation_nil in P. now subst.
    - destruct bs as [|b bs]; [apply Permutation_sym, Permutation_nil in P; discriminate|].
      cbn [map length seq] in E. injection E as E1 E2.
      inversion S as [|y l' S1 S2]; subst y l'.
      assert (x = b) as ->.
      { assert (Hx : In x (b :: bs)) by (eapply Permutation_in; [exact P|now left]).
        destruct Hx as [->|Hx]; [reflexivity|].
        assert (Hb : In b (x :: l)) by (eapply Permutation_in; [apply Permutation_sym; exact P|now left]).
        destruct Hb as [->|Hb]; [reflexivity|].
        rewrite Forall_forall in S1. specialize (S1 _ Hb). unfold bar_less in S1. apply Nat.ltb_ge in S1.
        assert (K : In (b_num x) (map b_num bs)) by now apply in_map.
        rewrite E2 in K. apply in_seq in K. lia. }
      f_equal. apply (IH (Datatypes.S n)); auto. now apply Permutation_cons_inv in P.
  Qed.

  Lemma timeline_spec : forall srt l, is_sort bar_less srt -> exists bts,
      timeline end_time srt l = Ok (flat_map preorder bts) /\ Forall2 (drawn end_time) l bts /\
      Forall bar_label_ok (flat_map preorder bts) /\
      map b_num (flat_map preorder bts) = seq 0 (length (flat_map preorder bts)).
  Proof.
    intros srt l HS. destruct (create_spec l 0) as (bts & H1 & H2 & H3 & H4 & H5). exists bts. unfold timeline.
    destruct (create_x_tree end_time l 0) as [recs xs]. cbn [fst snd] in *. subst recs.
    rewrite collect_keyed; auto. 2:{ rewrite H3. apply seq_NoDup. }
    cbn [obind]. split; [|auto]. f_equal. destruct (HS (flat_map preorder bts)) as [P S].
    eapply sorted_seq; eauto.
  Qed.

  Lemma drawn_data : forall t bt, drawn end_time t bt -> map b_data (preorder bt) = preorder t.
  Proof.
    apply (tree_ind' (fun t => forall bt, drawn end_time t bt -> map b_data (preorder bt) = preorder t)).
    intros d cs HF bt HD. inversion HD as [d' cs' b bs H1 H2 H3]; subst. cbn [preorder map]. f_equal.
    clear HD H3. induction H1 as [|c b1 cs bs HC HR IH]; [reflexivity|]. inversion HF; subst. cbn [flat_map].
    rewrite map_app. f_equal; auto.
  Qed.
  Lemma drawn_forest_data : forall l bts, Forall2 (drawn end_time) l bts ->
      map b_data (flat_map preorder bts) = flat_map preorder l.
  Proof.
    induction 1 as [|t bt l bts H HF IH]; [reflexivity|]. cbn [flat_map]. rewrite map_app, IH. f_equal. now apply drawn_data.
  Qed.
End Timeline.

(** ** View models and objects *)
Lemma node_view_depths : forall A (f : A -> vm_node) t d,
    tree_depths d (node_view f t) = map (fun p => (fst p, f (snd p))) (tree_depths d t).
Proof.
  intros A f. apply (tree_ind' (fun t => forall d, tree_depths d (node_view f t) =
    map (fun p => (fst p, f (snd p))) (tree_depths d t))).
  intros a cs HF d. cbn [node_view tree_depths map fst snd]. f_equal.
  induction HF as [|c cs HC HF IH]; [reflexivity|]. cbn [map flat_map]. now rewrite map_app, HC, IH.
Qed.
Lemma forest_view_depths : forall A (f : A -> vm_node) l d,
    forest_depths d (map (node_view f) l) = map (fun p => (fst p, f (snd p))) (forest_depths d l).
Proof.
  intros A f l d. unfold forest_depths. induction l as [|t l IH]; [reflexivity|]. cbn [map flat_map].
  now rewrite map_app, node_view_depths, IH.
Qed.
Lemma node_view_preorder : forall A (f : A -> vm_node) t, preorder (node_view f t) = map f (preorder t).
Proof.
  intros A f. apply (tree_ind' (fun t => preorder (node_view f t) = map f (preorder t))).
  intros a cs HF. cbn [node_view preorder map]. f_equal.
  induction HF as [|c cs HC HF IH]; [reflexivity|]. cbn [map flat_map]. now rewrite map_app, HC, IH.
Qed.
Lemma forest_view_preorder : forall A (f : A -> vm_node) l,
    flat_map preorder (map (node_view f) l) = map f (flat_map preorder l).
Proof.
  intros A f l. induction l as [|t l IH]; [reflexivity|]. cbn [map flat_map]. now rewrite map_app, node_view_preorder, IH.
Qed.

Fixpoint strip {A} (t : tree (nat * A)) : tree A := match t with Node a cs => Node (snd a) (map strip cs) end.
Lemma objects_spec : forall A (t : tree A) k,
    strip (fst (objects k t)) = t /\ map fst (preorder (fst (objects k t))) = seq k (snd (objects k t) - k) /\
    k <= snd (objects k t).
Proof.
  intros A. apply (tree_ind' (fun t => forall k, strip (fst (objects k t)) = t /\
    map fst (preorder (fst (objects k t))) = seq k (snd (objects k t) - k) /\ k <= snd (objects k t))).
  intros a cs HF k. cbn [objects].
  match goal with |- context [?g (S k) cs] => set (go := g) end.
  assert (HG : forall k, map strip (fst (go k cs)) = cs /\
    map fst (flat_map preorder (fst (go k cs))) = seq k (snd (go k cs) - k) /\ k <= snd (go k cs)).
  { clear k. induction HF as [|c cs HC HF IH]; intros k; [cbn; rewrite Nat.sub_diag; auto|].
    unfold go. cbn [objects]. fold go. destruct (HC k) as (H1 & H2 & H3).
    destruct (objects k c) as [c' k1]. cbn [fst snd] in *.
    destruct (IH k1) as (I1 & I2 & I3). destruct (go k1 cs) as [cs' k2]. cbn [fst snd map flat_map] in *.
    split; [now f_equal|]. split; [|lia].
    rewrite map_app, H2, I2. replace (k2 - k) with ((k1 - k) + (k2 - k1)) by lia. rewrite seq_app. do 2 f_equal. lia. }
  destruct (HG (S k)) as (H1 & H2 & H3). destruct (go (S k) cs) as [cs' k']. cbn [fst snd strip preorder map] in *.
  split; [now f_equal|]. split; [|lia]. rewrite H2. replace (k' - k) with (S (k' - S k)) by lia. reflexivity.
Qed.
Lemma forest_objects_spec : forall A (l : list (tree A)) k,
    map strip (forest_objects k l) = l /\
    exists n, map fst (flat_map preorder (forest_objects k l)) = seq k n.
Proof.
  induction l as [|t l IH]; intros k; cbn [forest_objects]; [split; [reflexivity|now exists 0]|].
  destruct (objects_spec _ t k) as (H1 & H2 & H3). destruct (objects k t) as [t' k1]. cbn [fst snd] in *.
  destruct (IH k1) as (I1 & n & I2). cbn [map flat_map]. split; [now f_equal|].
  exists ((k1 - k) + n). rewrite map_app, H2, I2, seq_app. do 2 f_equal. lia.
Qed.
Lemma strip_preorder : forall A (t : tree (nat * A)), preorder (strip t) = map snd (preorder t).
Proof.
  intros A. apply (tree_ind' (fun t : tree (nat * A) => preorder (strip t) = map snd (preorder t))).
  intros a cs HF. cbn [strip preorder map]. f_equal.
  induction HF as [|c cs HC HF IH]; [reflexivity|]. cbn [map flat_map]. now rewrite map_app, HC, IH.
Qed.
Lemma forest_strip_preorder : forall A (l : list (tree (nat * A))),
    flat_map preorder (map strip l) = map snd (flat_map preorder l).
Proof.
  induction l as [|t l IH]; [reflexivity|]. cbn [map flat_map]. now rewrite map_app, strip_preorder, IH.
Qed.
Lemma objects_distinct : forall A (l : list (tree A)) k, distinct_objects (forest_objects k l).
Proof.
  intros A l k. unfold distinct_objects. destruct (forest_objects_spec _ l k) as (_ & n & E). rewrite E. apply seq_NoDup.
Qed.
Lemma objects_preorder : forall A (l : list (tree A)) k,
    map snd (flat_map preorder (forest_objects k l)) = flat_map preorder l.
Proof.
  intros A l k. destruct (forest_objects_spec _ l k) as (E & _). rewrite <- E at 2. now rewrite forest_strip_preorder.
Qed.
