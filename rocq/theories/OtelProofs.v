(** Proofs about the span forest. *)
From Coq Require Import String List NArith ZArith Bool Lia Arith Permutation.
From Verif Require Import Base IndexBuild ExplainTree ExplainSpec Otel OtelSpec.
Import ListNotations.
Local Open Scope nat_scope.

Lemma mget_mupdate : forall A (m : smap A) k f k', mget (mupdate m k f) k' = if seqb k' k then option_map f (mget m k') else mget m k'.
Proof.
  intros A m k f k'. induction m as [|[k0 v] m IH]; simpl; [now destruct (seqb k' k)|].
  destruct (seqb_spec k k0) as [->|N]; simpl.
  - destruct (seqb k' k0) eqn:E; auto.
  - destruct (seqb_spec k' k0) as [->|N']; [|exact IH]. destruct (seqb_spec k0 k); [congruence|reflexivity].
Qed.
Lemma keys_mupdate : forall A (m : smap A) k f, keys (mupdate m k f) = keys m.
Proof.
  intros A m k f. induction m as [|[k0 v] m IH]; simpl; auto. destruct (seqb k k0); simpl; congruence.
Qed.
Lemma mget_Some_key : forall A (m : smap A) k v, mget m k = Some v -> In k (keys m).
Proof. intros A m k v H. apply mget_In in H. apply in_map_iff. exists (k, v). auto. Qed.
Lemma key_mget_Some : forall A (m : smap A) k, In k (keys m) -> exists v, mget m k = Some v.
Proof.
  intros A m k H. destruct (mget m k) eqn:E; eauto. apply mget_None in E. tauto.
Qed.

(** ** Values *)
Fixpoint any_value_ind' (P : any_value -> Prop)
  (H1 : forall s, P (AString s)) (H2 : forall b, P (ABool b)) (H3 : forall z, P (AInt z)) (H4 : forall z, P (ADouble z))
  (H5 : forall l, Forall P l -> P (AArray l)) (H6 : forall l, Forall (fun x => P (snd x)) l -> P (AKv l))
  (H7 : forall b, P (ABytes b)) (H8 : P AUnset) (v : any_value) : P v :=
  let self := any_value_ind' P H1 H2 H3 H4 H5 H6 H7 H8 in
  match v with
  | AString s => H1 s | ABool b => H2 b | AInt z => H3 z | ADouble z => H4 z
  | AArray l => H5 l ((fix go l : Forall P l := match l with [] => Forall_nil _ | x :: l' => Forall_cons _ (self x) (go l') end) l)
  | AKv l => H6 l ((fix go l : Forall (fun x => P (snd x)) l :=
                      match l with [] => Forall_nil _ | x :: l' => Forall_cons _ (self (snd x)) (go l') end) l)
  | ABytes b => H7 b | AUnset => H8
  end.

Lemma to_any_value_spec : forall v, match to_any_value v with
  | Ok v' => v' = v /\ complete v | Err _ => False | Panic => ~ complete v end.
Proof.
  induction v using any_value_ind'; try (simpl; auto; fail).
  - cbn [to_any_value complete].
    set (go := fix go (l : list any_value) : outcome (list any_value) :=
        match l with [] => Ok [] | x :: l' => do x' <- to_any_value x; do r <- go l'; Ok (x' :: r) end).
    set (cg := fix go (l : list any_value) : Prop := match l with [] => True | x :: l' => complete x /\ go l' end).
    assert (HG : match go l with Ok l' => l' = l /\ cg l | Err _ => False | Panic => ~ cg l end).
    { induction H as [|x l Hx Hl IH]; simpl; auto.
      destruct (to_any_value x) as [x'|e|]; cbn [obind]; try tauto.
      destruct Hx as [-> Hx]. destruct (go l) as [l'|e|]; cbn [obind]; try tauto.
      destruct IH as [-> IH]. auto. }
    change (match (do l' <- go l; Ok (AArray l')) with Ok v' => v' = AArray l /\ cg l | Err _ => False | Panic => ~ cg l end).
    destruct (go l); cbn [obind]; try tauto. destruct HG as [-> HG]. auto.
  - cbn [to_any_value complete].
    set (go := fix go (l : list (gostring * any_value)) : outcome (list (gostring * any_value)) :=
        match l with [] => Ok [] | (k, x) :: l' => do x' <- to_any_value x; do r <- go l'; Ok ((k, x') :: r) end).
    set (cg := fix go (l : list (gostring * any_value)) : Prop := match l with [] => True | x :: l' => complete (snd x) /\ go l' end).
    assert (HG : match go l with Ok l' => l' = l /\ cg l | Err _ => False | Panic => ~ cg l end).
    { induction H as [|[k x] l Hx Hl IH]; simpl; auto. simpl in Hx.
      destruct (to_any_value x) as [x'|e|]; cbn [obind]; try tauto.
      destruct Hx as [-> Hx]. destruct (go l) as [l'|e|]; cbn [obind]; try tauto.
      destruct IH as [-> IH]. auto. }
    change (match (do l' <- go l; Ok (AKv l')) with Ok v' => v' = AKv l /\ cg l | Err _ => False | Panic => ~ cg l end).
    destruct (go l); cbn [obind]; try tauto. destruct HG as [-> HG]. auto.
Qed.

Lemma to_attrs_spec : forall l seen m,
    (forall k v, mget m k = Some v <-> exists a b, seen = a ++ (k, v) :: b /\ Forall (fun x => fst x <> k) b) ->
    match to_attrs l m with
    | Ok m' => Forall (fun a => complete (snd a)) l /\
        forall k v, mget m' k = Some v <-> exists a b, seen ++ l = a ++ (k, v) :: b /\ Forall (fun x => fst x <> k) b
    | Err _ => False
    | Panic => ~ Forall (fun a => complete (snd a)) l
    end.
Proof.
  induction l as [|[k0 v0] l IH]; intros seen m Hm; cbn [to_attrs].
  - split; [constructor|]. now rewrite app_nil_r.
  - pose proof (to_any_value_spec v0) as HV. destruct (to_any_value v0) as [v'|e|]; cbn [obind]; [|tauto|].
    + destruct HV as [-> HV]. specialize (IH (seen ++ [(k0, v0)]) (mset m k0 v0)).
      assert (HM : forall k v, mget (mset m k0 v0) k = Some v <->
               exists a b, seen ++ [(k0, v0)] = a ++ (k, v) :: b /\ Forall (fun x => fst x <> k) b).
      { intros k v. rewrite mget_mset. destruct (seqb_spec k k0) as [->|N].
        - split.
          + intros E. injection E as ->. exists seen, []. auto.
          + intros (a & b & E & F). destruct (exists_last (l := (k0, v) :: b) ltac:(discriminate)) as (b' & x & Eb).
            rewrite Eb in E. rewrite app_assoc in E. apply app_inj_tail in E. destruct E as [_ <-].
            destruct b as [|y b].
            * destruct b'; [|destruct b'; discriminate]. simpl in Eb. now injection Eb as ->.
            * exfalso. assert (In (k0, v0) (y :: b)).
              { destruct b' as [|z b']; [discriminate|]. simpl in Eb. injection Eb as _ Eb. rewrite Eb. apply in_app_iff. right. now left. }
              rewrite Forall_forall in F. now apply (F _ H).
        - rewrite Hm. split; intros (a & b & E & F).
          + exists a, (b ++ [(k0, v0)]). rewrite E, <- app_assoc. split; [reflexivity|]. apply Forall_app. split; auto.
          + destruct (exists_last (l := (k, v) :: b) ltac:(discriminate)) as (b' & x & Eb).
            rewrite Eb in E. rewrite app_assoc in E. apply app_inj_tail in E. destruct E as [Es <-].
            destruct b as [|y b].
            * destruct b'; [|destruct b'; discriminate]. simpl in Eb. injection Eb as -> _. congruence.
            * destruct b' as [|z b']; [discriminate|]. simpl in Eb. injection Eb as <- Eb.
              exists a, b'. split; auto. rewrite Eb in F. apply Forall_app in F. tauto. }
      specialize (IH HM). destruct (to_attrs l (mset m k0 v0)) as [m'|e|]; [|tauto|].
      * destruct IH as [I1 I2]. split; [constructor; auto|]. intros k v. rewrite I2, <- app_assoc. reflexivity.
      * intros F. apply IH. now inversion F.
    + intros F. apply HV. now inversion F.
Qed.

Lemma first_service_spec : forall l name, first_service l = name ->
  (exists a v b, l = a ++ (lit "service.name", v) :: b /\ Forall (fun x => fst x <> lit "service.name") a /\
      name = match v with AString s => s | _ => [] end) \/
  (Forall (fun x => fst x <> lit "service.name") l /\ name = []).
Proof.
  induction l as [|[k v] l IH]; intros name H; cbn [first_service] in H.
  - right. split; auto.
  - destruct (seqb_spec k service_name_key) as [->|N].
    + left. exists [], v, l. split; [reflexivity|]. split; [constructor|]. subst. now destruct v.
    + destruct (IH name H) as [(a & w & b & -> & F & E)|[F E]].
      * left. exists ((k, v) :: a), w, b. split; [reflexivity|]. split; auto.
      * right. split; auto.
Qed.
Lemma service_of_spec : forall rs, service_is rs (service_of rs).
Proof.
  intros rs. unfold service_is, service_of. destruct (rs_attrs rs); auto. now apply first_service_spec.
Qed.

Lemma to_omodel_span_spec : forall s rs, match to_omodel_span s rs with
  | Ok sp => shows s rs sp /\ Forall (fun a => complete (snd a)) (r_attrs s)
  | Err _ => False
  | Panic => ~ Forall (fun a => complete (snd a)) (r_attrs s)
  end.
Proof.
  intros s rs. unfold to_omodel_span. pose proof (to_attrs_spec (r_attrs s) [] []) as H.
  assert (H0 : forall (k : gostring) (v : any_value), mget [] k = Some v <->
     exists a b, [] = a ++ (k, v) :: b /\ Forall (fun x : gostring * any_value => fst x <> k) b).
  { intros k v. split; [discriminate|]. intros (a & b & E & _). destruct a; discriminate. }
  specialize (H H0). destruct (to_attrs (r_attrs s) []) as [m|e|]; cbn [obind]; auto.
  destruct H as [H1 H2]. split; auto. repeat (split; [reflexivity|]). split; [apply service_of_spec|exact H2].
Qed.

(** ** Collecting *)
Fixpoint collect_flat (l : list (raw_span * resource_spans)) (m : smap holder) : outcome (smap holder) :=
  match l with
  | [] => Ok m
  | (s, rs) :: l' =>
      do sp <- to_omodel_span s rs;
      collect_flat l' (mset m (r_span_id s) {| h_orig := s; h_span := sp; h_children := []; h_parent := None |})
  end.
Lemma collect_flat_app : forall a b m, collect_flat (a ++ b) m = do m' <- collect_flat a m; collect_flat b m'.
Proof.
  induction a as [|[s rs] a IH]; intros b m; cbn [app collect_flat obind]; auto.
  destruct (to_omodel_span s rs); cbn [obind]; auto.
Qed.
Lemma collect_spans_flat : forall rs l m, collect_spans rs l m = collect_flat (map (fun s => (s, rs)) l) m.
Proof.
  intros rs l. induction l as [|s l IH]; intros m; cbn [collect_spans map collect_flat]; auto.
  destruct (to_omodel_span s rs); cbn [obind]; auto.
Qed.
Lemma collect_libs_flat : forall rs l m, collect_libs rs l m = collect_flat (map (fun s => (s, rs)) (concat l)) m.
Proof.
  intros rs l. induction l as [|s l IH]; intros m; cbn [collect_libs concat]; auto.
  rewrite map_app, collect_flat_app, <- collect_spans_flat. destruct (collect_spans rs s m); cbn [obind]; auto.
Qed.
Lemma collect_resources_flat : forall l m, collect_resources l m = collect_flat (all_spans l) m.
Proof.
  induction l as [|rs l IH]; intros m; cbn [collect_resources]; auto. unfold all_spans. cbn [flat_map].
  rewrite collect_flat_app, <- collect_libs_flat. destruct (collect_libs rs (rs_spans rs) m); cbn [obind]; auto.
Qed.

Definition last_with (l : list (raw_span * resource_spans)) (id : bytes) (s : raw_span) (rs : resource_spans) : Prop :=
  exists a b, l = a ++ (s, rs) :: b /\ r_span_id s = id /\ Forall (fun x => r_span_id (fst x) <> id) b.
Lemma last_with_snoc : forall l s0 rs0 id s rs, last_with (l ++ [(s0, rs0)]) id s rs <->
    if seqb id (r_span_id s0) then s = s0 /\ rs = rs0 else last_with l id s rs.
Proof.
  intros l s0 rs0 id s rs. destruct (seqb_spec id (r_span_id s0)) as [->|N]; split.
  - intros (a & b & E & H & F). destruct (exists_last (l := (s, rs) :: b) ltac:(discriminate)) as (b' & x & Eb).
    rewrite Eb, app_assoc in E. apply app_inj_tail in E. destruct E as [_ <-].
    destruct b as [|y b].
    + destruct b'; [|destruct b'; discriminate]. simpl in Eb. injection Eb as -> ->. auto.
    + exfalso. destruct b' as [|z b']; [discriminate|]. simpl in Eb. injection Eb as _ Eb. rewrite Eb in F.
      apply Forall_app in F. destruct F as [_ F]. inversion F as [|? ? F1 F2]; subst. now apply F1.
  - intros [-> ->]. exists l, []. split; auto.
  - intros (a & b & E & H & F). destruct (exists_last (l := (s, rs) :: b) ltac:(discriminate)) as (b' & x & Eb).
    rewrite Eb, app_assoc in E. apply app_inj_tail in E. destruct E as [E <-].
    destruct b as [|y b].
    + destruct b'; [|destruct b'; discriminate]. simpl in Eb. injection Eb as -> ->. congruence.
    + destruct b' as [|z b']; [discriminate|]. simpl in Eb. injection Eb as <- Eb. exists a, b'. split; auto. split; auto.
      rewrite Eb in F. apply Forall_app in F. tauto.
  - intros (a & b & -> & H & F). exists a, (b ++ [(s0, rs0)]). rewrite <- app_assoc. split; [reflexivity|]. split; auto.
    apply Forall_app. split; auto.
Qed.
Lemma last_with_fun : forall l id s rs s' rs', last_with l id s rs -> last_with l id s' rs' -> s = s' /\ rs = rs'.
Proof.
  intros l. induction l as [|[s0 rs0] l IH] using rev_ind; intros id s rs s' rs' H1 H2.
  - destruct H1 as (a & b & E & _). destruct a; discriminate.
  - apply last_with_snoc in H1, H2. destruct (seqb id (r_span_id s0)); [|eauto]. destruct H1, H2. split; congruence.
Qed.

(** the holders of the collected map *)
Definition held (l : list (raw_span * resource_spans)) (m : smap holder) : Prop :=
  NoDup (keys m) /\
  (forall id h, mget m id = Some h -> exists rs, last_with l id (h_orig h) rs /\ shows (h_orig h) rs (h_span h) /\
                                   h_children h = [] /\ h_parent h = None) /\
  (forall id s rs, last_with l id s rs -> exists h, mget m id = Some h /\ h_orig h = s).
Lemma collect_flat_spec : forall l seen m, held seen m ->
    match collect_flat l m with
    | Ok m' => held (seen ++ l) m' /\ Forall (fun x => Forall (fun a => complete (snd a)) (r_attrs (fst x))) l
    | Err _ => False
    | Panic => ~ Forall (fun x => Forall (fun a => complete (snd a)) (r_attrs (fst x))) l
    end.
Proof.
  induction l as [|[s rs] l IH]; intros seen m (H1 & H2 & H3); cbn [collect_flat].
  - rewrite app_nil_r. split; [split; auto|constructor].
  - pose proof (to_omodel_span_spec s rs) as HS. destruct (to_omodel_span s rs) as [sp|e|]; cbn [obind]; [|tauto|].
    + destruct HS as [HS HC].
      specialize (IH (seen ++ [(s, rs)]) (mset m (r_span_id s) {| h_orig := s; h_span := sp; h_children := []; h_parent := None |})).
      assert (HH : held (seen ++ [(s, rs)]) (mset m (r_span_id s) {| h_orig := s; h_span := sp; h_children := []; h_parent := None |})).
      { split; [now apply keys_mset_NoDup|]. split.
        - intros id h E. rewrite mget_mset in E. destruct (seqb_spec id (r_span_id s)) as [->|N].
          + injection E as <-. exists rs. simpl. split; [apply last_with_snoc; now rewrite seqb_refl|auto].
          + destruct (H2 id h E) as (rs' & K1 & K2). exists rs'. split; auto. apply last_with_snoc. apply seqb_neq in N. now rewrite N.
        - intros id s' rs' K. apply last_with_snoc in K. rewrite mget_mset. destruct (seqb_spec id (r_span_id s)) as [->|N].
          + destruct K as [-> ->]. eexists. split; [reflexivity|reflexivity].
          + eauto. }
      specialize (IH HH). destruct (collect_flat l _) as [m'|e|]; [|tauto|].
      * rewrite <- app_assoc in IH. destruct IH as [I1 I2]. split; [exact I1|]. constructor; auto.
      * intros F. apply IH. now inversion F.
    + intros F. apply HS. now inversion F.
Qed.

(** ** Linking *)
Definition link (m0 : smap holder) (id : bytes) : option bytes :=
  match mget m0 id with
  | None => None
  | Some h => if is_root_span (h_orig h) then None
              else match mget m0 (r_parent_id (h_orig h)) with
                   | Some _ => Some (r_parent_id (h_orig h))
                   | None => None
                   end
  end.
Definition linked_to (m0 : smap holder) (pid id : bytes) : bool :=
  match link m0 id with Some p => seqb p pid | None => false end.
Definition unlinked (m0 : smap holder) (id : bytes) : bool :=
  match link m0 id with Some _ => false | None => true end.
Definition linked_upto (m0 : smap holder) (done : list bytes) (m : smap holder) : Prop :=
  keys m = keys m0 /\
  forall id, match mget m0 id, mget m id with
    | Some h0, Some h => h_orig h = h_orig h0 /\ h_span h = h_span h0 /\
        h_children h = filter (linked_to m0 id) done /\
        h_parent h = if in_dec runes_eq_dec id done then link m0 id else None
    | None, None => True
    | _, _ => False
    end.

Lemma link_loop_spec : forall m0 todo done m roots, linked_upto m0 done m -> NoDup (done ++ todo) ->
    (forall id, In id todo -> In id (keys m0)) -> roots = filter (unlinked m0) done ->
    exists m', link_loop todo m roots = (m', filter (unlinked m0) (done ++ todo)) /\ linked_upto m0 (done ++ todo) m'.
Proof.
  intros m0 todo. induction todo as [|id todo IH]; intros done m roots HL HN HK HR; cbn [link_loop].
  - exists m. rewrite app_nil_r. subst. auto.
  - assert (Hid : In id (keys m0)) by (apply HK; now left). destruct (key_mget_Some _ _ _ Hid) as (h0 & E0).
    destruct HL as [HL1 HL2]. pose proof (HL2 id) as Hid2. rewrite E0 in Hid2.
    destruct (mget m id) as [h|] eqn:E; [|tauto]. destruct Hid2 as (O1 & O2 & O3 & O4).
    assert (Hnd : ~ In id done).
    { intros K. clear - HN K. induction done as [|x done IH]; [elim K|]. simpl in HN. inversion HN as [|? ? N1 N2]; subst.
      destruct K as [->|K]; [|auto]. apply N1. apply in_app_iff. right. now left. }
    destruct (in_dec runes_eq_dec id done) as [|_]; [tauto|].
    replace (done ++ id :: todo) with ((done ++ [id]) ++ todo) in * by now rewrite <- app_assoc.
    assert (Hk : forall id0, In id0 todo -> In id0 (keys m0)) by (intros; apply HK; now right).
    assert (UN : link m0 id = None -> linked_upto m0 (done ++ [id]) m).
    { intros HU. split; auto. intros x. specialize (HL2 x). destruct (mget m0 x) as [hx0|], (mget m x) as [hx|]; auto.
      destruct HL2 as (X1 & X2 & X3 & X4). split; auto. split; auto. split.
      - rewrite filter_app. cbn [filter]. unfold linked_to at 2. rewrite HU. now rewrite app_nil_r.
      - rewrite X4. destruct (in_dec runes_eq_dec x done) as [I|I], (in_dec runes_eq_dec x (done ++ [id])) as [J|J]; auto.
        + elim J. apply in_app_iff. auto.
        + apply in_app_iff in J. destruct J as [J|[<-|[]]]; [tauto|]. now rewrite HU. }
    assert (SAME : forall x, (match mget m0 x with Some _ => true | None => false end) = (match mget m x with Some _ => true | None => false end)).
    { intros x. specialize (HL2 x). destruct (mget m0 x), (mget m x); tauto. }
    rewrite O1. destruct (is_root_span (h_orig h0)) eqn:ER.
    + assert (HU : link m0 id = None) by (unfold link; now rewrite E0, ER).
      apply IH; auto. rewrite filter_app. cbn [filter]. unfold unlinked at 2. rewrite HU. now rewrite HR.
    + pose proof (SAME (r_parent_id (h_orig h0))) as HS.
      destruct (mget m (r_parent_id (h_orig h0))) as [hp|] eqn:EP.
      * destruct (mget m0 (r_parent_id (h_orig h0))) as [hp0|] eqn:EP0; [|discriminate].
        assert (HU : link m0 id = Some (r_parent_id (h_orig h0))) by (unfold link; now rewrite E0, ER, EP0).
        set (pid := r_parent_id (h_orig h0)) in *. cbv zeta.
        apply IH; auto.
        -- split; [now rewrite !keys_mupdate|]. intros x. rewrite mget_mupdate, !mget_mupdate.
           specialize (HL2 x). destruct (mget m0 x) as [hx0|], (mget m x) as [hx|]; try tauto;
             [|destruct (seqb x id), (seqb x pid); auto].
           destruct HL2 as (X1 & X2 & X3 & X4).
           assert (XC : h_children (if seqb x pid then append_child id hx else hx) = filter (linked_to m0 x) (done ++ [id])).
           { rewrite filter_app. cbn [filter]. unfold linked_to at 2. rewrite HU. rewrite (seqb_sym pid x).
             destruct (seqb x pid); simpl; rewrite X3; auto. now rewrite app_nil_r. }
           assert (XP : h_parent (if seqb x pid then append_child id hx else hx) = h_parent hx) by (destruct (seqb x pid); auto).
           destruct (seqb_spec x id) as [->|N].
           ++ destruct (seqb id pid) eqn:EE; simpl.
              ** split; [exact X1|]. split; [exact X2|]. simpl in XC. split; [exact XC|].
                 destruct (in_dec runes_eq_dec id (done ++ [id])) as [J|J]; [now rewrite HU|].
                 elim J. apply in_app_iff. right. now left.
              ** split; [exact X1|]. split; [exact X2|]. split; [exact XC|].
                 destruct (in_dec runes_eq_dec id (done ++ [id])) as [J|J]; [now rewrite HU|].
                 elim J. apply in_app_iff. right. now left.
           ++ assert (XX : h_parent hx = if in_dec runes_eq_dec x (done ++ [id]) then link m0 x else None).
              { rewrite X4. destruct (in_dec runes_eq_dec x done) as [I|I], (in_dec runes_eq_dec x (done ++ [id])) as [J|J]; auto.
                - elim J. apply in_app_iff. auto.
                - apply in_app_iff in J. destruct J as [J|[->|[]]]; tauto. }
              destruct (seqb x pid) eqn:EE; simpl; simpl in XC; (split; [exact X1|]); (split; [exact X2|]); split; auto.
        -- rewrite filter_app. cbn [filter]. unfold unlinked at 2. rewrite HU. now rewrite app_nil_r.
      * destruct (mget m0 (r_parent_id (h_orig h0))) as [hp0|] eqn:EP0; [discriminate|].
        assert (HU : link m0 id = None) by (unfold link; now rewrite E0, ER, EP0).
        apply IH; auto. rewrite filter_app. cbn [filter]. unfold unlinked at 2. rewrite HU. now rewrite HR.
Qed.

(** ** Reading the trees *)
Section Read.
  Context (srt : list (tree node) -> list (tree node)) (Hsrt : is_sort start_less srt).
  Context (m0 m : smap holder) (order_ : list bytes) (HP : Permutation order_ (keys m0)) (HND : NoDup (keys m0))
    (HL : linked_upto m0 order_ m) (HID : forall id h, mget m0 id = Some h -> s_span_id (h_span h) = id).

  Lemma NDo : NoDup order_.
  Proof. eapply Permutation_NoDup; [apply Permutation_sym, HP|exact HND]. Qed.

  (** [chain l]: from the first id to a top, each linked to the next *)
  Inductive chain : list bytes -> Prop :=
  | chain_top : forall id, In id (keys m0) -> link m0 id = None -> chain [id]
  | chain_cons : forall id pid l, In id (keys m0) -> link m0 id = Some pid -> chain (pid :: l) -> chain (id :: pid :: l).
  Lemma chain_fun : forall l1 l2, chain l1 -> chain l2 -> hd_error l1 = hd_error l2 -> l1 = l2.
  Proof.
    intros l1 l2 H1. revert l2. induction H1 as [id K1 K2|id pid l K1 K2 H1 IH]; intros l2 H2 E.
    - inversion H2; subst; simpl in E; injection E as ->; congruence.
    - inversion H2 as [id' J1 J2|id' pid' l' J1 J2 J3]; subst; simpl in E; injection E as <-; [congruence|].
      rewrite K2 in J2. injection J2 as ->. f_equal. now apply IH.
  Qed.
  Lemma chain_suffix : forall a b, chain (a ++ b) -> b <> [] -> chain b.
  Proof.
    induction a as [|x a IH]; intros b H Hb; auto. apply IH; auto. simpl in H. inversion H; subst; auto.
    destruct a; [simpl in *; subst; congruence|discriminate].
  Qed.
  Lemma chain_NoDup : forall l, chain l -> NoDup l.
  Proof.
    induction l as [|x l IH]; intros H; [constructor|]. constructor.
    - intros K. apply in_split in K. destruct K as (a & b & ->).
      assert (H2 : chain (x :: b)) by (apply (chain_suffix (x :: a) (x :: b)); [exact H|discriminate]).
      pose proof (chain_fun _ _ H H2 eq_refl) as E. injection E as E. apply (f_equal (@length _)) in E.
      rewrite app_length in E. simpl in E. lia.
    - destruct l as [|y l]; [constructor|]. apply IH. apply (chain_suffix [x] (y :: l)); [exact H|discriminate].
  Qed.
  Lemma chain_keys : forall l, chain l -> incl l (keys m0).
  Proof.
    intros l H. induction H as [id K1 K2|id pid l K1 K2 H IH]; intros x Hx.
    - destruct Hx as [<-|[]]; auto.
    - destruct Hx as [<-|Hx]; auto.
  Qed.

  (** the tree read at an id *)
  Inductive reads : bytes -> tree node -> Prop :=
  | reads_node : forall id h cs,
      mget m0 id = Some h -> NoDup (map id_of cs) ->
      (forall c, In c (map id_of cs) <-> In c (keys m0) /\ link m0 c = Some id) ->
      sorted_by start_less cs -> Forall (fun c => reads (id_of c) c) cs ->
      reads id (Node {| n_span := h_span h;
                        n_parent := match link m0 id with
                                    | None => None
                                    | Some p => option_map h_span (mget m0 p)
                                    end |} cs).

  Lemma read_span_spec : forall fuel id l, chain (id :: l) -> length (keys m0) < fuel + length (id :: l) ->
      exists t, read_span srt fuel m id = Some t /\ reads id t /\ id_of t = id.
  Proof.
    induction fuel as [|fuel IH]; intros id l HC HF.
    - exfalso. pose proof (NoDup_incl_length (chain_NoDup _ HC) (chain_keys _ HC)). lia.
    - cbn [read_span]. assert (Hid : In id (keys m0)) by (apply (chain_keys _ HC); now left).
      destruct (key_mget_Some _ _ _ Hid) as (h0 & E0). destruct HL as [HL1 HL2]. pose proof (HL2 id) as Hx. rewrite E0 in Hx.
      destruct (mget m id) as [h|] eqn:E; [|tauto]. destruct Hx as (O1 & O2 & O3 & O4).
      set (go := fix go (l : list bytes) : option (list (tree node)) := match l with [] => Some []
           | c :: l' => match read_span srt fuel m c, go l' with Some t, Some ts => Some (t :: ts) | _, _ => None end end).
      assert (HG : forall cl, (forall c, In c cl -> In c (keys m0) /\ link m0 c = Some id) ->
                exists ts, go cl = Some ts /\ map id_of ts = cl /\ Forall (fun c => reads (id_of c) c) ts).
      { induction cl as [|c cl IHc]; intros Hcl.
        - exists []. repeat split; constructor.
        - destruct (Hcl c) as [K1 K2]; [now left|].
          destruct (IH c (id :: l)) as (t & Et & Rt & It).
          { constructor; auto. }
          { simpl in *. lia. }
          destruct IHc as (ts & Ets & Mts & Fts); [intros; apply Hcl; now right|].
          exists (t :: ts). simpl. rewrite Et, Ets. split; [reflexivity|]. split; [simpl; congruence|].
          constructor; auto. now rewrite It. }
      destruct (HG (h_children h)) as (ts & Ets & Mts & Fts).
      { intros c Hc. rewrite O3 in Hc. apply filter_In in Hc. destruct Hc as [Hc1 Hc2]. split.
        - eapply Permutation_in; eauto.
        - unfold linked_to in Hc2. destruct (link m0 c) as [p|]; [|discriminate]. apply seqb_eq in Hc2. congruence. }
      rewrite Ets. eexists. split; [reflexivity|]. destruct (Hsrt ts) as [Sp Ss].
      assert (Hin : In id order_) by (eapply Permutation_in; [apply Permutation_sym, HP|exact Hid]).
      split; [|unfold id_of; simpl; rewrite O2; now apply HID].
      replace (match h_parent h with Some p => option_map h_span (mget m p) | None => None end)
        with (match link m0 id with None => None | Some p => option_map h_span (mget m0 p) end).
      2:{ rewrite O4. destruct (in_dec runes_eq_dec id order_); [|tauto]. destruct (link m0 id) as [p|]; auto.
          specialize (HL2 p). destruct (mget m0 p) as [hp0|], (mget m p) as [hp|]; try tauto. simpl. destruct HL2 as (_ & -> & _). reflexivity. }
      rewrite O2. constructor; auto.
      + eapply Permutation_NoDup; [apply Permutation_map, Permutation_sym, Sp|]. rewrite Mts, O3. apply NoDup_filter, NDo.
      + intros c. assert (EQ : In c (map id_of (srt ts)) <-> In c (h_children h)).
        { rewrite <- Mts. split; apply Permutation_in; [|apply Permutation_sym]; now apply Permutation_map. }
        rewrite EQ, O3, filter_In. unfold linked_to. split.
        * intros [K1 K2]. split; [eapply Permutation_in; eauto|]. destruct (link m0 c); [|discriminate]. apply seqb_eq in K2. congruence.
        * intros [K1 K2]. split; [eapply Permutation_in; [apply Permutation_sym, HP|exact K1]|]. rewrite K2. apply seqb_refl.
      + rewrite Forall_forall in *. intros c Hc. apply Fts. eapply Permutation_in; eauto.
  Qed.

  Lemma read_spans_spec : forall l, (forall id, In id l -> In id (keys m0) /\ link m0 id = None) ->
      exists ts, read_spans srt (length (keys m0)) m l = Ok ts /\ map id_of ts = l /\ Forall (fun t => reads (id_of t) t) ts.
  Proof.
    induction l as [|id l IH]; intros H; cbn [read_spans].
    - exists []. repeat split; constructor.
    - destruct (H id) as [K1 K2]; [now left|].
      destruct (read_span_spec (length (keys m0)) id []) as (t & Et & Rt & It); [now constructor|simpl; lia|].
      rewrite Et. destruct IH as (ts & Ets & Mts & Fts); [intros; apply H; now right|]. rewrite Ets. cbn [obind].
      exists (t :: ts). split; [reflexivity|]. split; [simpl; congruence|]. constructor; auto. now rewrite It.
  Qed.
End Read.
