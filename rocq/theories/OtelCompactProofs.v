(** Proofs about compaction. *)
From Coq Require Import String List NArith ZArith Bool Lia Arith Permutation.
From Verif Require Import Base IndexBuild ExplainTree ExplainSpec ExplainTreeProofs Otel OtelSpec OtelProofs OtelForestProofs.
Import ListNotations.
Local Open Scope nat_scope.

Lemma is_same_spec : forall a b, is_same a b = true <-> s_trace_id a = s_trace_id b /\ s_span_id a = s_span_id b.
Proof. intros a b. unfold is_same. rewrite andb_true_iff, !seqb_eq. reflexivity. Qed.
Lemma is_same_key : forall a b : node, is_same (n_span a) (n_span b) = true <-> span_key a = span_key b.
Proof.
  intros a b. rewrite is_same_spec. unfold span_key. split; [intros [-> ->]; reflexivity|intros E; injection E; auto].
Qed.
Lemma copy_key : forall n cs, span_key (compact_copy n cs) = span_key n.
Proof. intros n cs. unfold compact_copy, span_key. simpl. now destruct (is_last_db (n_span n) cs). Qed.

(** What the visit builds *)
Fixpoint compacted (t : tree node) : list (tree node) :=
  match t with
  | Node n cs => if remains n cs then [Node (compact_copy n cs) (flat_map compacted cs)] else flat_map compacted cs
  end.

Lemma compact_visit_spec : forall t h top st v ts F,
    inv h (top :: st) ((v, ts) :: F) -> distinct_spans t ->
    remains (t_val t) (t_children t) = true \/ ~ In (span_key v) (map span_key (preorder t)) ->
    exists h', compact_visit t h (top :: st) = Ok (h', top :: st) /\ inv h' (top :: st) ((v, ts ++ compacted t) :: F).
Proof.
  apply (tree_ind' (fun t => forall h top st v ts F,
    inv h (top :: st) ((v, ts) :: F) -> distinct_spans t ->
    remains (t_val t) (t_children t) = true \/ ~ In (span_key v) (map span_key (preorder t)) ->
    exists h', compact_visit t h (top :: st) = Ok (h', top :: st) /\ inv h' (top :: st) ((v, ts ++ compacted t) :: F))).
  intros n cs IH h top st v ts F HI HD HV. cbn [compact_visit]. cbn [t_val t_children] in HV.
  unfold distinct_spans in HD. cbn [preorder map] in HD. inversion HD as [|? ? D1 D2]; subst.
  set (go := fix go (cs : list (tree node)) (h : heap node) (st : list nat) : outcome (heap node * list nat) :=
        match cs with
        | [] => Ok (h, st)
        | c :: cs' => do r <- compact_visit c h st; go cs' (fst r) (snd r)
        end).
  assert (HG : forall h top st v ts F, inv h (top :: st) ((v, ts) :: F) ->
             ~ In (span_key v) (map span_key (flat_map preorder cs)) ->
             exists h', go cs h (top :: st) = Ok (h', top :: st) /\ inv h' (top :: st) ((v, ts ++ flat_map compacted cs) :: F)).
  { clear HD HV HI h top st v ts F D1. revert D2. induction IH as [|c cs Hc Hcs IHl]; intros D2 h top st v ts F HI HV.
    - exists h. simpl. rewrite app_nil_r. auto.
    - cbn [flat_map] in *. rewrite map_app in D2, HV.
      assert (Dc : distinct_spans c /\ NoDup (map span_key (flat_map preorder cs))).
      { unfold distinct_spans. clear - D2. induction (map span_key (preorder c)) as [|x l IH]; simpl in *; [split; [constructor|auto]|].
        inversion D2 as [|? ? N1 N2]; subst. destruct (IH N2). split; auto. constructor; auto. rewrite in_app_iff in N1. tauto. }
      destruct Dc as [Dc Dcs].
      destruct (Hc h top st v ts F HI Dc) as (h1 & E1 & I1); [right; rewrite in_app_iff in HV; tauto|].
      destruct (IHl Dcs h1 top st v (ts ++ compacted c) F I1) as (h2 & E2 & I2); [rewrite in_app_iff in HV; tauto|].
      exists h2. cbn [go]. rewrite E1. cbn [obind fst snd]. rewrite E2. split; [reflexivity|].
      now rewrite app_assoc. }
  unfold enter. cbn [compacted]. destruct (remains n cs) eqn:ER.
  - cbv beta iota zeta delta [alloc].
    pose proof (inv_attach h top st v ts F (compact_copy n cs) HI) as IA.
    destruct (HG _ _ _ _ _ _ IA) as (h' & E' & I'); [rewrite copy_key; exact D1|].
    cbn [fst alloc] in E'. rewrite E'. cbn [obind fst snd]. unfold leave.
    assert (HV' : heap_val h' (length h) = Some (compact_copy n cs)).
    { destruct I' as (HS & _). inversion HS as [|? ? ? ? ? ? ? Hn]; subst. unfold heap_val. rewrite Hn. reflexivity. }
    rewrite HV'. replace (is_same (n_span (compact_copy n cs)) (n_span n)) with true
      by (symmetry; apply is_same_key, copy_key).
    exists h'. split; [reflexivity|]. apply inv_pop in I'. exact I'.
  - destruct HV as [HV|HV]; [discriminate|]. cbn [preorder map In] in HV.
    destruct (HG _ _ _ _ _ _ HI) as (h' & E' & I'); [tauto|]. rewrite E'. cbn [obind fst snd]. unfold leave.
    assert (HV' : heap_val h' top = Some v).
    { destruct I' as (HS & _). inversion HS as [|? ? ? ? ? ? ? Hn]; subst. unfold heap_val. rewrite Hn. reflexivity. }
    rewrite HV'. replace (is_same (n_span v) (n_span n)) with false; [exists h'; auto|].
    symmetry. apply not_true_iff_false. rewrite is_same_key. intros E. apply HV. left. congruence.
Qed.

Lemma is_last_db_spec : forall n cs, is_last_db (n_span n) cs = true <-> db_leaf (Node n cs).
Proof.
  intros n cs. unfold is_last_db, db_leaf, has_db. cbn [t_children]. unfold span_at. cbn [t_val]. split.
  - destruct cs; [|discriminate]. change (lit "db.system") with db_system_key.
    destruct (mget (s_attrs (n_span n)) db_system_key); [eauto|discriminate].
  - intros [-> (v & E)]. change (lit "db.system") with db_system_key in E. now rewrite E.
Qed.
Lemma copy_shown : forall n cs, shown_as (Node n cs) (n_span (compact_copy n cs)).
Proof.
  intros n cs. unfold shown_as, compact_copy. cbv zeta. unfold span_at. cbn [t_val n_span].
  destruct (is_last_db (n_span n) cs) eqn:E; cbn [set_service s_name s_trace_id s_span_id s_start s_end s_attrs s_service];
    repeat (split; [reflexivity|]).
  - split; [|intros H; apply is_last_db_spec in E; tauto]. intros _. exists (db_system (n_span n)). split; [reflexivity|].
    unfold db_system. change (lit "db.system") with db_system_key.
    destruct (mget (s_attrs (n_span n)) db_system_key) as [v|]; [|left; split; [reflexivity|discriminate]].
    destruct v; simpl; try (left; split; [reflexivity|discriminate]). now right.
  - split; [|auto]. intros H. apply is_last_db_spec in H. congruence.
Qed.

Definition up_of (above : list (tree node)) : option span :=
  match above with [] => None | u :: _ => Some (span_at u) end.
Lemma remains_spec : forall n cs above, n_parent n = up_of above ->
    (remains n cs = true <-> stays (Node n cs :: above)).
Proof.
  intros n cs above H. unfold remains. rewrite H. destruct above as [|u above]; cbn [up_of stays]; [tauto|].
  change (span_at (Node n cs)) with (n_span n). rewrite <- is_last_db_spec.
  destruct (seqb_spec (s_service (span_at u)) (s_service (n_span n))) as [E|E]; cbn [negb].
  - split; [auto|]. intros [K|K]; congruence.
  - split; [|auto]. intros _. left. congruence.
Qed.

Lemma sublist_where_app : forall A (P : A -> Prop) a a' b b', sublist_where P a a' -> sublist_where P b b' ->
    sublist_where P (a ++ b) (a' ++ b').
Proof.
  intros A P a a' b b' H1 H2. induction H1 as [|x l l' Hx Hl IH|x l l' Hx Hl IH]; simpl; auto.
  - now constructor.
  - now apply sw_skip.
Qed.

Definition fits (kept : list (list (tree node))) (ways : list (list (tree node))) : Prop :=
  Forall2 (fun way way' => shortened way (map span_at way')) kept ways.

Lemma compacted_paths : forall t above above', linked (up_of above) t -> shortened above (map span_at above') ->
    exists kept, sublist_where stays (paths above t) kept /\ fits kept (flat_map (paths above') (compacted t)).
Proof.
  apply (tree_ind' (fun t => forall above above', linked (up_of above) t -> shortened above (map span_at above') ->
    exists kept, sublist_where stays (paths above t) kept /\ fits kept (flat_map (paths above') (compacted t)))).
  intros n cs IH above above' HL HS. inversion HL as [up n' cs' HP HC]; subst.
  assert (HG : forall above2, shortened (Node n cs :: above) (map span_at above2) ->
     exists kept, sublist_where stays (flat_map (paths (Node n cs :: above)) cs) kept /\
       fits kept (flat_map (paths above2) (flat_map compacted cs))).
  { intros above2 HS2. change (Some (n_span n)) with (up_of (Node n cs :: above)) in HC. revert HC HS2.
    generalize (Node n cs :: above). clear - IH. intros w HC HS2.
    induction IH as [|c cs Hc Hcs IHl].
    - exists []. split; constructor.
    - inversion HC as [|? ? C1 C2]; subst. destruct (Hc w above2 C1 HS2) as (k1 & A1 & B1).
      destruct (IHl C2) as (k2 & A2 & B2). exists (k1 ++ k2). cbn [flat_map]. split; [now apply sublist_where_app|].
      rewrite flat_map_app. now apply Forall2_app. }
  cbn [paths compacted]. pose proof (remains_spec n cs above HP) as HR. destruct (remains n cs).
  - assert (HK : shortened (Node n cs :: above) (map span_at (Node (compact_copy n cs) (flat_map compacted cs) :: above'))).
    { cbn [map]. constructor; auto; [now apply HR|]. apply copy_shown. }
    destruct (HG _ HK) as (kept & A & B). exists ((Node n cs :: above) :: kept). split; [constructor; [now apply HR|exact A]|].
    cbn [flat_map paths]. rewrite app_nil_r. constructor; auto.
  - assert (HK : ~ stays (Node n cs :: above)) by (intros K; apply HR in K; discriminate).
    destruct (HG above') as (kept & A & B); [now constructor|]. exists kept. split; [now apply sw_skip|exact B].
Qed.

Lemma compact_spec : forall t, linked None t -> distinct_spans t -> exists t', compact t = Ok (Some t') /\ compacted_of t t'.
Proof.
  intros t HL HD. unfold compact. cbv beta iota zeta delta [alloc].
  assert (HR : remains (t_val t) (t_children t) = true).
  { inversion HL; subst. unfold remains. simpl. match goal with H : n_parent _ = None |- _ => now rewrite H end. }
  destruct (compact_visit_spec t _ _ _ _ _ _ (inv_init {| n_span := empty_span; n_parent := None |}) HD (or_introl HR)) as (h & E & I).
  cbn [fst alloc app length] in E. cbn [app length]. rewrite E. cbn [obind fst].
  destruct (inv_read h [0] _ I ltac:(discriminate) eq_refl) as (tt & E1 & E2). rewrite E2. cbn [obind].
  cbn [zclose] in E1. rewrite app_nil_r in E1. injection E1 as <-. cbn [t_children app].
  destruct (compacted_paths t [] [] HL short_nil) as (kept & A & B).
  destruct t as [n cs]. cbn [t_val t_children] in HR. cbn [compacted] in *. rewrite HR in *.
  eexists. split; [reflexivity|]. exists kept. split; [exact A|]. cbn [flat_map] in B. now rewrite app_nil_r in B.
Qed.

(** ** The trees of the converter can be compacted *)
Lemma span_tree_linked : forall input t, span_tree input t -> linked (n_parent (t_val t)) t.
Proof.
  intros input. apply (tree_ind' (fun t => span_tree input t -> linked (n_parent (t_val t)) t)). intros n cs IH H.
  inversion H as [n' cs' s rs H1 H2 H3 H4 H5 H6 H7]; subst. constructor; [reflexivity|].
  rewrite Forall_forall in *. intros c Hc. rewrite <- (H6 c Hc). apply IH; auto.
Qed.
Lemma ids_distinct : forall t, NoDup (ids t) -> distinct_spans t.
Proof.
  intros t H. unfold distinct_spans. apply (NoDup_map_inv snd). rewrite map_map. exact H.
Qed.
Lemma NoDup_flat_map_each : forall A B (f : A -> list B) l, NoDup (flat_map f l) -> Forall (fun a => NoDup (f a)) l.
Proof.
  intros A B f l. induction l as [|a l IH]; simpl; intros H; constructor.
  - clear IH. induction (f a) as [|x k IHk]; [constructor|]. simpl in H. inversion H as [|? ? N1 N2]; subst. constructor; auto.
    rewrite in_app_iff in N1. tauto.
  - apply IH. clear IH. induction (f a) as [|x k IHk]; auto. apply IHk. simpl in H. now inversion H.
Qed.

Lemma compact_all_spec : forall ts, Forall (linked None) ts -> Forall distinct_spans ts ->
    exists cs, compact_all ts = Ok cs /\ Forall2 compacted_of ts cs.
Proof.
  induction ts as [|t ts IH]; intros H1 H2; cbn [compact_all].
  - exists []. split; [reflexivity|constructor].
  - inversion H1; inversion H2; subst. destruct (compact_spec t) as (t' & -> & C); auto. cbn [obind].
    destruct IH as (cs & -> & F); auto. cbn [obind]. exists (t' :: cs). split; [reflexivity|]. constructor; auto.
Qed.

Lemma find_compacted_spec : forall ords srt traces k, (forall i, any_order (ords i)) -> is_sort start_less srt ->
    match find_compacted ords srt k traces with
    | Ok cs => Forall complete_input traces /\
        exists tss, length tss = length traces /\
          (forall i tr ts, nth_error traces i = Some tr -> nth_error tss i = Some ts -> to_trace_trees (ords (k + i)) srt tr = Ok ts) /\
          Forall2 compacted_of (concat tss) cs
    | Err _ => False
    | Panic => ~ Forall complete_input traces
    end.
Proof.
  intros ords srt traces. induction traces as [|tr traces IH]; intros k Ho Hs; cbn [find_compacted].
  - split; [constructor|]. exists []. split; [reflexivity|]. split; [|constructor]. intros [|i] ? ? E; discriminate.
  - pose proof (to_trace_trees_spec (ords k) srt tr (Ho k) Hs) as HT.
    destruct (to_trace_trees (ords k) srt tr) as [ts|e|] eqn:ET; cbn [obind]; [|tauto|].
    + destruct HT as (T0 & T1 & T2 & _ & _ & T3 & _).
      destruct (compact_all_spec ts) as (cs & EC & FC).
      { rewrite Forall_forall in *. intros t Ht. rewrite <- (T2 t Ht). eapply span_tree_linked; eauto. }
      { apply NoDup_flat_map_each in T3. eapply Forall_impl; [|exact T3]. intros; now apply ids_distinct. }
      rewrite EC. cbn [obind]. specialize (IH (S k) Ho Hs).
      destruct (find_compacted ords srt (S k) traces) as [r|e|]; cbn [obind]; [|tauto|].
      * destruct IH as (I0 & tss & I1 & I2 & I3). split; [constructor; auto|]. exists (ts :: tss).
        split; [simpl; congruence|]. split; [|simpl; now apply Forall2_app].
        intros [|i] tr' ts' K1 K2; simpl in K1, K2.
        -- rewrite Nat.add_0_r. congruence.
        -- replace (k + S i) with (S k + i) by lia. eauto.
      * intros F. apply IH. now inversion F.
    + intros F. apply HT. now inversion F.
Qed.
