(** Proofs about the span forest: which spans it has, and where. *)
From Coq Require Import String List NArith ZArith Bool Lia Arith Permutation Sorted.
From Verif Require Import Base IndexBuild ExplainTree ExplainSpec ExplainTreeProofs Otel OtelSpec OtelProofs.
Import ListNotations.
Local Open Scope nat_scope.

Lemma is_root_span_spec : forall s, is_root_span s = true <-> no_id (r_parent_id s).
Proof.
  intros s. unfold is_root_span, no_id. rewrite forallb_forall, Forall_forall.
  split; intros H x Hx; apply N.eqb_eq; auto.
Qed.

Lemma NoDup_app_intro : forall A (a b : list A), NoDup a -> NoDup b -> (forall x, In x a -> ~ In x b) -> NoDup (a ++ b).
Proof.
  induction a as [|x a IH]; simpl; intros b Ha Hb H; auto. inversion Ha as [|? ? N1 N2]; subst. constructor.
  - intros K. apply in_app_iff in K. destruct K as [K|K]; [tauto|]. exact (H x (or_introl eq_refl) K).
  - apply IH; [exact N2|exact Hb|]. intros y Hy. apply H. now right.
Qed.
Lemma NoDup_flat_map : forall A B (f : A -> list B) (key : A -> gostring) l, NoDup (map key l) ->
    (forall a, In a l -> NoDup (f a)) ->
    (forall a b x, In a l -> In b l -> In x (f a) -> In x (f b) -> key a = key b) -> NoDup (flat_map f l).
Proof.
  intros A B f key l. induction l as [|a l IH]; simpl; intros HK HN HX; [constructor|].
  inversion HK as [|? ? N1 N2]; subst. apply NoDup_app_intro; auto.
  - apply IH; auto. intros; eapply HX; eauto.
  - intros x Hx K. apply in_flat_map in K. destruct K as (b & Hb & Kb). apply N1.
    rewrite (HX a b x); auto. now apply in_map.
Qed.

Section Forest.
  Context (input : list resource_spans) (m0 : smap holder) (HH : held (all_spans input) m0).

  Lemma held_known : forall id, known input id <-> In id (keys m0).
  Proof.
    intros id. destruct HH as (H1 & H2 & H3). split.
    - intros (s & rs & K). destruct (H3 id s rs K) as (h & E & _). eapply mget_Some_key; eauto.
    - intros K. destruct (key_mget_Some _ _ _ K) as (h & E). destruct (H2 _ _ E) as (rs & K2 & _). exists (h_orig h), rs. exact K2.
  Qed.
  Lemma held_orig : forall id s rs h, counts_for input id s rs -> mget m0 id = Some h -> h_orig h = s.
  Proof.
    intros id s rs h K E. destruct HH as (H1 & H2 & H3). destruct (H3 _ _ _ K) as (h' & E' & <-). congruence.
  Qed.
  Lemma held_id : forall id h, mget m0 id = Some h -> s_span_id (h_span h) = id.
  Proof.
    intros id h E. destruct HH as (H1 & H2 & H3). destruct (H2 _ _ E) as (rs & (a & b & _ & K & _) & S & _).
    destruct S as (_ & _ & S & _). congruence.
  Qed.
  Lemma link_top : forall id, top_span input id <-> In id (keys m0) /\ link m0 id = None.
  Proof.
    intros id. split.
    - intros (s & rs & K & KK). assert (Hid : In id (keys m0)) by (apply held_known; now exists s, rs).
      split; auto. destruct (key_mget_Some _ _ _ Hid) as (h & E). unfold link. rewrite E, (held_orig _ _ _ _ K E).
      destruct (is_root_span s) eqn:ER; auto. destruct KK as [KK|KK].
      + apply is_root_span_spec in KK. congruence.
      + destruct (mget m0 (r_parent_id s)) eqn:EP; auto. elim KK. apply held_known. eapply mget_Some_key; eauto.
    - intros [Hid HL]. destruct (key_mget_Some _ _ _ Hid) as (h & E). destruct HH as (H1 & H2 & H3).
      destruct (H2 _ _ E) as (rs & K & _). exists (h_orig h), rs. split; [exact K|]. unfold link in HL. rewrite E in HL.
      destruct (is_root_span (h_orig h)) eqn:ER; [left; now apply is_root_span_spec|]. right.
      destruct (mget m0 (r_parent_id (h_orig h))) eqn:EP; [discriminate|]. rewrite held_known. now apply mget_None.
  Qed.
  Lemma link_child : forall id p, child_of input id p <-> In id (keys m0) /\ link m0 id = Some p.
  Proof.
    intros id p. split.
    - intros (s & rs & K & <- & K2 & K3). assert (Hid : In id (keys m0)) by (apply held_known; now exists s, rs).
      split; auto. destruct (key_mget_Some _ _ _ Hid) as (h & E). unfold link. rewrite E, (held_orig _ _ _ _ K E).
      destruct (is_root_span s) eqn:ER; [apply is_root_span_spec in ER; tauto|].
      apply held_known in K3. destruct (key_mget_Some _ _ _ K3) as (hp & ->). reflexivity.
    - intros [Hid HL]. destruct (key_mget_Some _ _ _ Hid) as (h & E). destruct HH as (H1 & H2 & H3).
      destruct (H2 _ _ E) as (rs & K & _). unfold link in HL. rewrite E in HL.
      destruct (is_root_span (h_orig h)) eqn:ER; [discriminate|].
      destruct (mget m0 (r_parent_id (h_orig h))) eqn:EP; [|discriminate]. injection HL as <-.
      exists (h_orig h), rs. split; [exact K|]. split; auto. split.
      + intros N. apply is_root_span_spec in N. congruence.
      + apply held_known. eapply mget_Some_key; eauto.
  Qed.

  Lemma rooted_chain : forall id, rooted input id <-> exists l, chain m0 (id :: l).
  Proof.
    intros id. split.
    - induction 1 as [id H|id p H _ IH].
      + apply link_top in H. exists []. now constructor.
      + apply link_child in H. destruct IH as (l & IH). exists (p :: l). now constructor.
    - intros (l & H). remember (id :: l) as L eqn:E. revert id l E. induction H as [i K1 K2|i p l' K1 K2 H IH]; intros id l E.
      + injection E as <- _. apply rooted_top, link_top. auto.
      + injection E as <- _. apply rooted_child with p; [apply link_child; auto|]. eauto.
  Qed.

  Lemma reads_ids : forall id t, reads m0 id t -> id_of t = id.
  Proof. intros id t H. inversion H; subst. unfold id_of. simpl. now apply held_id. Qed.

  Lemma reads_tree : forall t id, reads m0 id t -> span_tree input t.
  Proof.
    apply (tree_ind' (fun t => forall id, reads m0 id t -> span_tree input t)). intros a cs IH id H.
    pose proof (reads_ids _ _ H) as Hi. unfold id_of in Hi. cbn [t_val] in Hi.
    inversion H as [i h cs' E ND HC SS F]; subst. cbn [n_span] in *.
    pose proof HH as (_ & HH2 & _). destruct (HH2 _ _ E) as (rs & K & S & _).
    apply span_tree_node with (h_orig h) rs; cbn [n_span]; auto.
    - now rewrite (held_id _ _ E) in *.
    - intros c. rewrite HC, link_child. now rewrite (held_id _ _ E).
    - clear - SS. induction SS as [|x l Hx _ IHs]; constructor; [exact IHs|]. eapply Forall_impl; [|exact Hx].
      intros y Hy. unfold start_less in Hy. apply Z.ltb_ge in Hy. exact Hy.
    - rewrite Forall_forall in *. intros c Hc. specialize (F c Hc). pose proof (in_map id_of _ _ Hc) as Hm. apply HC in Hm.
      destruct Hm as [_ Hm]. inversion F as [i' h' cs'' E' ND' HC' SS' F' EQ1 EQ2]; subst. cbn [t_val n_parent].
      rewrite EQ2 in *. rewrite Hm. rewrite E. reflexivity.
    - rewrite Forall_forall in *. intros c Hc. eapply IH; eauto.
  Qed.

  Lemma reads_chains : forall t id, reads m0 id t -> forall l, chain m0 (id :: l) ->
      NoDup (ids t) /\
      forall x, In x (ids t) <-> exists p, chain m0 (p ++ id :: l) /\ hd_error (p ++ id :: l) = Some x.
  Proof.
    apply (tree_ind' (fun t => forall id, reads m0 id t -> forall l, chain m0 (id :: l) ->
      NoDup (ids t) /\ forall x, In x (ids t) <-> exists p, chain m0 (p ++ id :: l) /\ hd_error (p ++ id :: l) = Some x)).
    intros a cs IH id H l HC0. pose proof (reads_ids _ _ H) as Hi. unfold id_of in Hi. cbn [t_val] in Hi.
    inversion H as [i h cs' E ND HC SS F]; subst i cs'. rewrite Forall_forall in IH, F.
    assert (EI : ids (Node a cs) = id :: flat_map ids cs).
    { unfold ids. cbn [preorder map]. rewrite Hi. f_equal. clear. induction cs as [|c cs IHc]; simpl; auto. now rewrite map_app, IHc. }
    match goal with |- NoDup (ids (Node ?b cs)) /\ _ => replace (Node b cs) with (Node a cs) by congruence end.
    rewrite EI.
    assert (HCc : forall c, In c cs -> chain m0 (id_of c :: id :: l)).
    { intros c Hc. pose proof (in_map id_of _ _ Hc) as Hm. apply HC in Hm. destruct Hm as [M1 M2]. now constructor. }
    assert (IHc : forall c, In c cs -> NoDup (ids c) /\
       forall x, In x (ids c) <-> exists p, chain m0 (p ++ id_of c :: id :: l) /\ hd_error (p ++ id_of c :: id :: l) = Some x).
    { intros c Hc. apply IH; auto. }
    split.
    - constructor.
      + intros K. apply in_flat_map in K. destruct K as (c & Hc & K). apply (proj2 (IHc c Hc)) in K. destruct K as (p & K1 & K2).
        assert (EQ : p ++ id_of c :: id :: l = id :: l) by (eapply chain_fun; eauto).
        apply (f_equal (@length _)) in EQ. rewrite app_length in EQ. simpl in EQ. lia.
      + apply (NoDup_flat_map _ _ ids id_of); auto; [intros c Hc; now apply IHc|].
        intros c1 c2 x Hc1 Hc2 K1 K2. apply (proj2 (IHc _ Hc1)) in K1. apply (proj2 (IHc _ Hc2)) in K2.
        destruct K1 as (p1 & A1 & B1), K2 as (p2 & A2 & B2).
        assert (EQ : p1 ++ id_of c1 :: id :: l = p2 ++ id_of c2 :: id :: l) by (eapply chain_fun; eauto; congruence).
        replace (p1 ++ id_of c1 :: id :: l) with ((p1 ++ [id_of c1]) ++ id :: l) in EQ by now rewrite <- app_assoc.
        replace (p2 ++ id_of c2 :: id :: l) with ((p2 ++ [id_of c2]) ++ id :: l) in EQ by now rewrite <- app_assoc.
        apply app_inv_tail in EQ. now apply app_inj_tail in EQ.
    - intros x. cbn [In]. rewrite in_flat_map. split.
      + intros [<-|(c & Hc & K)]; [exists []; auto|]. apply (proj2 (IHc c Hc)) in K. destruct K as (p & K1 & K2).
        exists (p ++ [id_of c]). rewrite <- app_assoc. auto.
      + intros (p & K1 & K2). destruct p as [|y p] using rev_ind.
        * left. simpl in K2. congruence.
        * right. clear IHp. rewrite <- app_assoc in K1, K2. simpl in K1, K2.
          assert (Hy : chain m0 (y :: id :: l)) by (apply (chain_suffix m0 p); [exact K1|discriminate]).
          inversion Hy as [|i1 i2 l1 Y1 Y2 Y3]; subst.
          assert (Hm : In y (map id_of cs)) by (apply HC; auto). apply in_map_iff in Hm. destruct Hm as (c & <- & Hc).
          exists c. split; auto. apply (proj2 (IHc c Hc)). eauto.
  Qed.
End Forest.

Lemma reads_parent_none : forall m0 id t, reads m0 id t -> link m0 id = None -> n_parent (t_val t) = None.
Proof. intros m0 id t H HL. inversion H; subst. simpl. now rewrite HL. Qed.

(** ** The forest *)
Lemma to_trace_trees_spec : forall ord srt input, any_order ord -> is_sort start_less srt ->
    match to_trace_trees ord srt input with
    | Ok ts =>
        complete_input input /\ Forall (span_tree input) ts /\ Forall (fun t => n_parent (t_val t) = None) ts /\
        NoDup (map id_of ts) /\ (forall id, In id (map id_of ts) <-> top_span input id) /\
        NoDup (flat_map ids ts) /\ (forall id, In id (flat_map ids ts) <-> rooted input id)
    | Err _ => False
    | Panic => ~ complete_input input
    end.
Proof.
  intros ord srt input Hord Hsrt. unfold to_trace_trees. rewrite collect_resources_flat.
  pose proof (collect_flat_spec (all_spans input) [] []) as HC.
  assert (H0 : held [] []).
  { split; [constructor|]. split; [discriminate|]. intros id s rs (a & b & E & _). destruct a; discriminate. }
  specialize (HC H0). destruct (collect_flat (all_spans input) []) as [m0|e|]; cbn [obind]; [|tauto|exact HC].
  destruct HC as [HH HCmp]. simpl in HH.
  pose proof (Hord (keys m0)) as HP. pose proof HH as (ND & HH2 & HH3).
  destruct (link_loop_spec m0 (ord (keys m0)) [] m0 []) as (m & EL & HL).
  { split; auto. intros id. destruct (mget m0 id) as [h|] eqn:E; auto. destruct (HH2 _ _ E) as (rs & _ & _ & C1 & C2).
    split; auto. }
  { simpl. eapply Permutation_NoDup; [apply Permutation_sym, HP|exact ND]. }
  { intros id Hid. eapply Permutation_in; eauto. }
  { reflexivity. }
  simpl in EL, HL. rewrite EL.
  replace (length m0) with (length (keys m0)) by apply map_length.
  assert (HR : forall id, In id (filter (unlinked m0) (ord (keys m0))) <-> In id (keys m0) /\ link m0 id = None).
  { intros id. rewrite filter_In. unfold unlinked. split.
    - intros [K1 K2]. split; [eapply Permutation_in; eauto|]. destruct (link m0 id); congruence.
    - intros [K1 ->]. split; auto. eapply Permutation_in; [apply Permutation_sym, HP|exact K1]. }
  destruct (read_spans_spec srt Hsrt m0 m (ord (keys m0)) HP ND HL (held_id input m0 HH) (filter (unlinked m0) (ord (keys m0))))
    as (ts & ET & MT & FT); [intros id Hid; now apply HR|].
  rewrite ET. split; [exact HCmp|].
  assert (HT : forall t, In t ts -> In (id_of t) (keys m0) /\ link m0 (id_of t) = None).
  { intros t Ht. apply HR. rewrite <- MT. now apply in_map. }
  rewrite Forall_forall in FT.
  split; [apply Forall_forall; intros t Ht; eapply reads_tree; eauto|].
  split; [apply Forall_forall; intros t Ht; eapply reads_parent_none; eauto; now apply HT|].
  assert (NDT : NoDup (map id_of ts)).
  { rewrite MT. apply NoDup_filter. eapply Permutation_NoDup; [apply Permutation_sym, HP|exact ND]. }
  split; [exact NDT|].
  split; [intros id; rewrite MT, HR; symmetry; now apply link_top|].
  assert (HX : forall t, In t ts -> NoDup (ids t) /\
     forall x, In x (ids t) <-> exists p, chain m0 (p ++ [id_of t]) /\ hd_error (p ++ [id_of t]) = Some x).
  { intros t Ht. eapply reads_chains; eauto. apply HT in Ht. destruct Ht. now constructor. }
  split.
  - apply (NoDup_flat_map _ _ ids id_of); auto; [intros t Ht; now apply HX|].
    intros t1 t2 x H1 H2 K1 K2. apply (proj2 (HX _ H1)) in K1. apply (proj2 (HX _ H2)) in K2.
    destruct K1 as (p1 & A1 & B1), K2 as (p2 & A2 & B2).
    assert (EQ : p1 ++ [id_of t1] = p2 ++ [id_of t2]) by (eapply chain_fun; eauto; congruence).
    now apply app_inj_tail in EQ.
  - intros x. rewrite in_flat_map. split.
    + intros (t & Ht & K). apply (proj2 (HX _ Ht)) in K. destruct K as (p & A & B).
      apply (rooted_chain input m0 HH). destruct (p ++ [id_of t]) as [|y l]; [discriminate|]. injection B as ->. eauto.
    + intros K. apply (rooted_chain input m0 HH) in K. destruct K as (l & K).
      assert (HLst : exists p r, x :: l = p ++ [r] /\ In r (keys m0) /\ link m0 r = None).
      { clear - K. remember (x :: l) as L. clear HeqL. induction K as [i K1 K2|i p l0 K1 K2 K IH].
        - exists [], i. auto.
        - destruct IH as (q & r & E & R). exists (i :: q), r. rewrite E. auto. }
      destruct HLst as (p & r & E & R). apply HR in R. rewrite <- MT in R. apply in_map_iff in R. destruct R as (t & <- & Ht).
      exists t. split; auto. apply (proj2 (HX _ Ht)). exists p. rewrite <- E. auto.
Qed.
