(** C107: the variables of the Hasura command. *)
From Coq Require Import String List NArith ZArith QArith Qround Bool Lia Arith Sorting Permutation.
From Verif Require Import Base IndexText PgAst IndexBuild BuildProperties ExistingProperties PgProperties Json JsonProofs HandOver Program ProgramSpec SuggestCmd CommandText
  HasuraProgram HasuraProgramSpec HasuraProgramProperties.
From Verif Require PgArray.
Import ListNotations.
Local Open Scope string_scope.
Local Open Scope list_scope.
Local Open Scope nat_scope.

Lemma text_lt_trans : forall a b c, text_lt a b = true -> text_lt b c = true -> text_lt a c = true.
Proof.
  induction a as [|x a IH]; intros [|y b] [|z c] H1 H2; try discriminate; try reflexivity.
  cbn [text_lt] in *. apply orb_true_iff in H1, H2. apply orb_true_iff.
  destruct H1 as [H1|H1], H2 as [H2|H2].
  - left. apply N.ltb_lt in H1, H2. apply N.ltb_lt. lia.
  - apply andb_true_iff in H2. destruct H2 as [H2 _]. apply N.eqb_eq in H2. subst z. now left.
  - apply andb_true_iff in H1. destruct H1 as [H1 _]. apply N.eqb_eq in H1. subst y. now left.
  - apply andb_true_iff in H1, H2. destruct H1 as [H1 H1'], H2 as [H2 H2']. right. apply N.eqb_eq in H1, H2. subst. rewrite N.eqb_refl. cbn. eauto.
Qed.
Lemma text_lt_irrefl : forall a, text_lt a a = false.
Proof. induction a as [|x a IH]; [reflexivity|]. cbn. now rewrite N.ltb_irrefl, N.eqb_refl, IH. Qed.
Lemma text_lt_total : forall a b, a <> b -> text_lt a b = false -> text_lt b a = true.
Proof.
  induction a as [|x a IH]; intros [|y b] HN H; try discriminate; try reflexivity; try congruence.
  cbn [text_lt] in *. apply orb_false_iff in H. destruct H as [H1 H2]. apply N.ltb_ge in H1. apply orb_true_iff.
  destruct (N.eqb_spec x y) as [->|HX]; [|left; apply N.ltb_lt; lia]. cbn in H2. right. rewrite N.eqb_refl. cbn. apply IH; [congruence|exact H2].
Qed.
Definition sorted (m : list (gostring * jv)) : Prop := StronglySorted (fun a b => text_lt (fst a) (fst b) = true) m.
Lemma put_in : forall k v m k' v', sorted m -> In (k', v') (put k v m) <-> (k' = k /\ v' = v) \/ (k' <> k /\ In (k', v') m).
Proof.
  intros k v m k' v' HS. induction HS as [|[k0 v0] m HS IH HF].
  - cbn. split; [intros [[= <- <-]|[]]; auto|intros [[-> ->]|[_ []]]; auto].
  - rewrite Forall_forall in HF. cbn [put]. destruct (seqb k k0) eqn:E.
    + apply seqb_eq in E. subst k0. split.
      * intros [[= <- <-]|H]; [auto|right]. split; [|now right]. intros ->. pose proof (HF _ H) as K. cbn in K. rewrite text_lt_irrefl in K. discriminate.
      * intros [[-> ->]|[HN [[= <- _]|H]]]; [now left|congruence|now right].
    + assert (HK : k <> k0) by (intros ->; rewrite (proj2 (seqb_eq _ _) eq_refl) in E; discriminate).
      destruct (text_lt k k0) eqn:EL.
      * split.
        -- intros [[= <- <-]|[[= <- <-]|H]]; [auto|right; split; [congruence|now left]|]. right. split; [|now right]. intros ->.
           pose proof (HF _ H) as K. cbn in K. pose proof (text_lt_trans _ _ _ EL K) as K2. rewrite text_lt_irrefl in K2. discriminate.
        -- intros [[-> ->]|[HN H]]; [now left|now right].
      * cbn [In]. rewrite IH. split.
        -- intros [[= <- <-]|[H|[HN H]]]; [right; split; [congruence|now left]|now left|right; split; [exact HN|now right]].
        -- intros [H|[HN [H|H]]]; [right; now left|now left|right; right; now split].
Qed.
Lemma put_sorted : forall k v m, sorted m -> sorted (put k v m).
Proof.
  intros k v m HS. induction HS as [|[k0 v0] m HS IH HF]; [constructor; constructor|]. cbn [put]. destruct (seqb k k0) eqn:E.
  - apply seqb_eq in E. subst k0. constructor; [exact HS|exact HF].
  - assert (HK : k <> k0) by (intros ->; rewrite (proj2 (seqb_eq _ _) eq_refl) in E; discriminate).
    destruct (text_lt k k0) eqn:EL.
    + constructor; [constructor; [exact HS|exact HF]|]. apply Forall_cons; [exact EL|]. eapply Forall_impl; [|exact HF].
      intros [k1 v1] H1. exact (text_lt_trans _ _ _ EL H1).
    + constructor; [exact IH|]. apply Forall_forall. intros [k1 v1] H1. apply put_in in H1; [|exact HS].
      destruct H1 as [[-> ->]|[_ H1]]; [cbn; now apply text_lt_total; auto|]. rewrite Forall_forall in HF. exact (HF _ H1).
Qed.
Lemma sorted_nodup : forall m, sorted m -> NoDup (map fst m).
Proof.
  induction 1 as [|[k v] m HS IH HF]; [constructor|]. cbn [map fst]. constructor; [|exact IH]. intros H. apply in_map_iff in H.
  destruct H as ([k1 v1] & E & H). cbn in E. subst k1. rewrite Forall_forall in HF. pose proof (HF _ H) as K. cbn in K. rewrite text_lt_irrefl in K. discriminate.
Qed.
(** The numbers of a value *)
Inductive number_in (q : Q) : jv -> Prop :=
| ni_num : number_in q (JNum q)
| ni_arr : forall l x, In x l -> number_in q x -> number_in q (JArr l)
| ni_obj : forall l k x, In (k, x) l -> number_in q x -> number_in q (JObj l).
Section Float.
Context (float : Q -> option Q).
Definition any_list := fix go (l : list jv) : outcome (list jv) := match l with [] => Ok [] | x :: l' => do y <- as_any float x; do ys <- go l'; Ok (y :: ys) end.
Definition any_members := fix go (l m : list (gostring * jv)) : outcome (list (gostring * jv)) :=
  match l with [] => Ok m | (k, x) :: l' => do y <- as_any float x; go l' (put k y m) end.
Lemma any_members_in : forall l m r, any_members l m = Ok r -> sorted m ->
    sorted r /\ (forall k, In k (map fst r) <-> In k (map fst l) \/ In k (map fst m)) /\
    (forall k v', ~ In k (map fst l) -> (In (k, v') r <-> In (k, v') m)) /\
    (forall k v v', last_of k l v -> In (k, v') r -> as_any float v = Ok v').
Proof.
  induction l as [|[k0 x] l IH]; intros m r H HS.
  - injection H as <-. split; [exact HS|]. split; [intros k; cbn; tauto|]. split; [intros k v' _; reflexivity|].
    intros k v v' (l1 & l2 & E & _). destruct l1; discriminate.
  - cbn [any_members] in H. destruct (as_any float x) as [y|msg|] eqn:EX; cbn [obind] in H; [|discriminate|discriminate].
    destruct (IH _ _ H (put_sorted _ _ _ HS)) as (H1 & H2 & H3 & H4). split; [exact H1|]. split; [|split].
    + intros k. rewrite H2. cbn [map fst In].
      assert (HP : In k (map fst (put k0 y m)) <-> k0 = k \/ In k (map fst m)).
      { rewrite !in_map_iff. split.
        - intros ([k1 v1] & E & K). cbn in E. subst k1. apply put_in in K; [|exact HS]. destruct K as [[-> _]|[_ K]]; [now left|right]. exists (k, v1). auto.
        - destruct (list_eq_dec N.eq_dec k k0) as [->|HN].
          + intros _. exists (k0, y). split; [reflexivity|]. apply put_in; auto.
          + intros [->|([k1 v1] & E & K)]; [congruence|]. cbn in E. subst k1. exists (k, v1). split; [reflexivity|]. apply put_in; auto. }
      rewrite HP. tauto.
    + intros k v' HN. cbn [map fst In] in HN. rewrite H3 by tauto. rewrite put_in by exact HS. split.
      * intros [[-> _]|[_ K]]; [elim HN; now left|exact K].
      * intros K. right. split; [intros ->; elim HN; now left|exact K].
    + intros k v v' (l1 & l2 & E & HL) HI. destruct l1 as [|p l1]; cbn [app] in E.
      * injection E as E1 E2 E3. subst k0 x l2. rewrite H3 in HI.
        2:{ intros K. apply in_map_iff in K. destruct K as ([k1 v1] & E & K). cbn in E. subst k1. exact (HL v1 K). }
        apply put_in in HI; [|exact HS]. destruct HI as [[_ ->]|[HN _]]; [exact EX|congruence].
      * injection E as E1 E2. subst l. apply (H4 k v v'); [exists l1, l2; auto|exact HI].
Qed.
Lemma last_of_in : forall k (l : list (gostring * jv)) v, last_of k l v -> In (k, v) l.
Proof. intros k l v (l1 & l2 & -> & _). apply in_or_app. right. now left. Qed.
Lemma as_any_sent : forall v v', as_any float v = Ok v' -> sent_as float v v'.
Proof.
  induction v as [|b|q|s|l IH|l IH] using jv_ind'; intros v' H.
  - injection H as <-. constructor.
  - injection H as <-. constructor.
  - cbn [as_any] in H. destruct (float q) as [q'|] eqn:E; [|discriminate]. injection H as <-. now constructor.
  - injection H as <-. constructor.
  - cbn [as_any] in H. fold any_list in H. destruct (any_list l) as [r|m|] eqn:E; cbn [obind] in H; [|discriminate|discriminate]. injection H as <-.
    constructor. revert r E. induction IH as [|x l Hx IH IHl]; intros r E.
    + injection E as <-. constructor.
    + cbn [any_list] in E. destruct (as_any float x) as [y|m|]; cbn [obind] in E; [|discriminate|discriminate]. fold any_list in E.
      destruct (any_list l) as [ys|m|]; cbn [obind] in E; [|discriminate|discriminate]. injection E as <-. apply Forall2_cons; auto.
  - cbn [as_any] in H. fold any_members in H. destruct (any_members l []) as [r|m|] eqn:E; cbn [obind] in H; [|discriminate|discriminate]. injection H as <-.
    destruct (any_members_in _ _ _ E (SSorted_nil _)) as (H1 & H2 & _ & H4). apply sent_obj.
    + now apply sorted_nodup.
    + intros k. rewrite H2. cbn. tauto.
    + intros k v v' HL HI. rewrite Forall_forall in IH. exact (IH _ (last_of_in _ _ _ HL) _ (H4 _ _ _ HL HI)).
Qed.
Lemma as_any_fails : forall v, as_any float v <> Panic /\ ((exists m, as_any float v = Err m) <-> exists q, number_in q v /\ float q = None).
Proof.
  assert (HS : forall v, (forall q, number_in q v -> False) -> (exists v', as_any float v = Ok v') -> as_any float v <> Panic /\ ((exists m, as_any float v = Err m) <-> exists q, number_in q v /\ float q = None)).
  { intros v HN (v' & ->). split; [discriminate|]. split; [intros (m & H); discriminate|intros (q & H & _); elim (HN q H)]. }
  induction v as [|b|q|s|l IH|l IH] using jv_ind'.
  - apply HS; [intros q H; inversion H|eexists; reflexivity].
  - apply HS; [intros q H; inversion H|eexists; reflexivity].
  - cbn [as_any]. destruct (float q) as [q'|] eqn:E.
    + split; [discriminate|]. split; [intros (m & H); discriminate|]. intros (q0 & H & H'). inversion H; subst. congruence.
    + split; [discriminate|]. split; [intros _; exists q; split; [constructor|exact E]|intros _; eexists; reflexivity].
  - apply HS; [intros q H; inversion H|eexists; reflexivity].
  - assert (HL : any_list l <> Panic /\ ((exists m, any_list l = Err m) <-> exists q x, In x l /\ number_in q x /\ float q = None)).
    { induction IH as [|x l (Hx1 & Hx2) IH (IH1 & IH2)].
      - split; [discriminate|]. split; [intros (m & H); discriminate|intros (q & x & [] & _)].
      - cbn [any_list]. fold any_list. destruct (as_any float x) as [y|m|] eqn:EX; cbn [obind]; [|split; [discriminate|]|congruence].
        + destruct (any_list l) as [ys|m|] eqn:EL; cbn [obind]; [split; [discriminate|]|split; [discriminate|]|congruence].
          * split; [intros (m & H); discriminate|]. intros (q & x' & [<-|Hi] & Hn & Hq).
            -- destruct (proj2 Hx2 (ex_intro _ q (conj Hn Hq))) as (m & H). discriminate.
            -- destruct (proj2 IH2 (ex_intro _ q (ex_intro _ x' (conj Hi (conj Hn Hq))))) as (m & H). discriminate.
          * split; [intros _|intros _; eexists; reflexivity]. destruct (proj1 IH2 (ex_intro _ m eq_refl)) as (q & x' & Hi & Hn). exists q, x'. split; [now right|exact Hn].
        + split; [intros _|intros _; eexists; reflexivity]. destruct (proj1 Hx2 (ex_intro _ m eq_refl)) as (q & Hn & Hq). exists q, x. split; [now left|auto]. }
    destruct HL as [H1 H2]. cbn [as_any]. fold any_list.
    assert (HE : (exists q, number_in q (JArr l) /\ float q = None) <-> exists q x, In x l /\ number_in q x /\ float q = None).
    { split; [intros (q & H & Hq); inversion H; subst; eauto 6|intros (q & x & Hi & Hn & Hq); exists q; split; [eapply ni_arr; eauto|exact Hq]]. }
    rewrite HE, <- H2. destruct (any_list l) as [r|m|]; cbn [obind]; [split; [discriminate|]|split; [discriminate|]|congruence].
    + split; intros (m & H); discriminate.
    + split; intros _; eexists; reflexivity.
  - assert (HL : forall m0, any_members l m0 <> Panic /\ ((exists m, any_members l m0 = Err m) <-> exists q k x, In (k, x) l /\ number_in q x /\ float q = None)).
    { induction IH as [|[k x] l (Hx1 & Hx2) IH IHl]; intros m0.
      - split; [discriminate|]. split; [intros (m & H); discriminate|intros (q & k & x & [] & _)].
      - cbn [snd] in Hx1, Hx2. cbn [any_members]. fold any_members. destruct (as_any float x) as [y|m|] eqn:EX; cbn [obind]; [|split; [discriminate|]|congruence].
        + destruct (IHl (put k y m0)) as [IH1 IH2]. split; [exact IH1|]. rewrite IH2. split.
          * intros (q & k' & x' & Hi & Hn). exists q, k', x'. split; [now right|exact Hn].
          * intros (q & k' & x' & [[= <- <-]|Hi] & Hn & Hq); [|eauto 7]. destruct (proj2 Hx2 (ex_intro _ q (conj Hn Hq))) as (m & H). discriminate.
        + split; [intros _|intros _; eexists; reflexivity]. destruct (proj1 Hx2 (ex_intro _ m eq_refl)) as (q & Hn & Hq). exists q, k, x. split; [now left|auto]. }
    destruct (HL []) as [H1 H2]. cbn [as_any]. fold any_members.
    assert (HE : (exists q, number_in q (JObj l) /\ float q = None) <-> exists q k x, In (k, x) l /\ number_in q x /\ float q = None).
    { split; [intros (q & H & Hq); inversion H; subst; eauto 7|intros (q & k & x & Hi & Hn & Hq); exists q; split; [eapply ni_obj; eauto|exact Hq]]. }
    rewrite HE, <- H2. destruct (any_members l []) as [r|m|]; cbn [obind]; [split; [discriminate|]|split; [discriminate|]|congruence].
    + split; intros (m & H); discriminate.
    + split; intros _; eexists; reflexivity.
Qed.
(** The variables are the text's, or null if it says null; refused are texts that are no
    JSON or neither an object nor null, and those with a number outside the range. *)
Theorem variables_read : forall unmarshal text,
    (forall v, parse_variables float unmarshal text = Ok v ->
       exists j, unmarshal text = Some j /\ sent_as float j (match v with None => JNull | Some m => JObj m end)) /\
    (failed (parse_variables float unmarshal text) <->
       match unmarshal text with
       | Some JNull => False
       | Some (JObj l) => exists q, number_in q (JObj l) /\ float q = None
       | _ => True
       end) /\
    parse_variables float unmarshal text <> Panic.
Proof.
  intros unmarshal text. unfold parse_variables, failed. destruct (unmarshal text) as [j|]; [|split; [|split]].
  - destruct j as [|b|q|s|l|l]; try (split; [intros v H; discriminate|split; [split; [auto|intros _ x; discriminate]|discriminate]]).
    + split; [intros v [= <-]; exists JNull; split; [reflexivity|constructor]|]. split; [|discriminate]. split; [intros H; exact (H _ eq_refl)|intros []].
    + destruct (as_any_fails (JObj l)) as [H1 H2]. rewrite <- H2.
      destruct (as_any float (JObj l)) as [j|m|] eqn:E; [|split; [intros v H; discriminate|split; [split; [intros _; eexists; reflexivity|intros _ x; discriminate]|discriminate]]|congruence].
      assert (HO : exists m, j = JObj m) by (cbn [as_any] in E; fold any_members in E; destruct (any_members l []) as [r| |]; cbn [obind] in E; [injection E as <-; eauto|discriminate|discriminate]).
      destruct HO as (m & ->). split; [intros v [= <-]; exists (JObj l); split; [reflexivity|now apply as_any_sent]|]. split; [|discriminate].
      split; [intros H; elim (H _ eq_refl)|intros (m' & H); discriminate].
  - intros v H; discriminate.
  - split; [auto|intros _ x; discriminate].
  - discriminate.
Qed.
End Float.
Local Open Scope Q_scope.
Definition half_float (q : Q) : option Q := if Qle_bool q 1000 then Some (Qred (inject_Z (Qfloor (q * 2)) / 2)) else None.
Local Close Scope Q_scope.
Example variables_read_ex :
  let text := JObj [(lit "n", JNum 7); (lit "a", JArr [JNull; JNum (1 # 3)]); (lit "n", JNum (3 # 2))] in
  parse_variables half_float (fun _ => Some text) [] = Ok (Some [(lit "a", JArr [JNull; JNum 0]); (lit "n", JNum (3 # 2))]) /\
  failed (parse_variables half_float (fun _ => Some (JObj [(lit "n", JNum 1001)])) []) /\
  failed (parse_variables half_float (fun _ => Some (JArr [])) []).
Proof. split; [vm_compute; reflexivity|]. split; intros x H; vm_compute in H; discriminate. Qed.

(** Each request that carries variables carries these. *)
Theorem variables_sent : forall {W} (hv : hworld W) unmarshal kfold norm fold so ord ordf srt unix rnds parse scan float parse_url env runs texts query variables output w tr w' r,
    (forall l, Permutation (so l) l) -> is_order ord -> is_order ordf -> is_sort itt_less srt ->
    hasura_main hv unmarshal kfold fold so ord ordf srt unix rnds norm parse scan float parse_url env runs texts query variables output w = (tr, w', r) ->
    forall a q j', In a tr -> (hear a = HExplain q j' \/ hear a = HQuery q j') -> q = query /\ exists j, unmarshal variables = Some j /\ sent_as float j j'.
Proof.
  intros W hv unmarshal kfold norm fold so ord ordf srt unix rnds parse scan float parse_url env runs texts query variables output w tr w' r Hso Ho Hof Hs H a q j' Hi Hh.
  destruct (hasura_conversation hv unmarshal kfold norm fold so ord ordf srt unix rnds scan parse Hso Ho Hof Hs _ _ _ _ _ float parse_url env w tr w' r H)
    as [(-> & _)|(v & HV & _ & _ & HT)]; [destruct Hi|].
  destruct (variables_read float unmarshal variables) as (HR & _). destruct (HR v HV) as (j & HU & HS). apply (in_map hear) in Hi.
  pose proof (hasura_harmless _ _ _ _ _ _ _ _ _ _ HT Hi) as HH.
  destruct Hh as [Hh|Hh]; rewrite Hh in HH; [destruct HH as [-> ->]|destruct HH as (_ & -> & ->)]; (split; [reflexivity|]; exists j; split; [exact HU|exact HS]).
Qed.
Example variables_sent_ex :
  let world := {| h_post := fun (n : nat) path body => (n, 0%Z, NoAnswer []); h_write := fun n _ _ => (n, None) |} in
  map hear (fst (fst (hasura_main world (fun _ => Some (JObj [(lit "id", JNum 5)])) ascii_fold ascii_fold (fun l => l) id_ord id_ord isort 7 (fun _ => 0%N) low
    (fun _ => Ok []) PgArray.array_in (fun q => Some q) (fun _ => Ok tt) ex_env false [] (lit "query { users { id } }") (lit "v") [] 0))) =
  [HExplain (lit "query { users { id } }") (JObj [(lit "id", JNum 5)])].
Proof. vm_compute. reflexivity. Qed.

(** If every number is one of the floating point ones, the value is the text's; *)
Inductive same_value : jv -> jv -> Prop :=
| same_null : same_value JNull JNull
| same_bool : forall b, same_value (JBool b) (JBool b)
| same_str : forall s, same_value (JStr s) (JStr s)
| same_num : forall q q', Qeq q q' -> same_value (JNum q) (JNum q')
| same_arr : forall l l', Forall2 same_value l l' -> same_value (JArr l) (JArr l')
| same_obj : forall l l', NoDup (map fst l') -> (forall k, In k (map fst l) <-> In k (map fst l')) ->
    (forall k v v', last_of k l v -> In (k, v') l' -> same_value v v') -> same_value (JObj l) (JObj l').
Theorem variables_exact : forall float, (forall q q', float q = Some q' -> Qeq q' q) -> forall j j', sent_as float j j' -> same_value j j'.
Proof.
  intros float HF. induction j as [|b|q|s|l IH|l IH] using jv_ind'; intros j' H; inversion H; subst; try (constructor; fail).
  - constructor. symmetry. auto.
  - constructor. match goal with K : Forall2 _ l _ |- _ => clear H; revert IH; induction K; intros IH end; [constructor|]. inversion IH; subst. apply Forall2_cons; auto.
  - apply same_obj; auto. intros k v v' HL HI. rewrite Forall_forall in IH. apply (IH _ (last_of_in _ _ _ HL)). eauto.
Qed.
Example variables_exact_ex : same_value (JObj [(lit "n", JNum 7); (lit "a", JArr [JNull]); (lit "n", JNum 3)]) (JObj [(lit "a", JArr [JNull]); (lit "n", JNum (6 # 2)%Q)]).
Proof.
  apply (variables_exact (fun q => if Qeq_bool q 3%Q then Some (6 # 2)%Q else Some q)).
  - intros q q'. destruct (Qeq_bool q 3%Q) eqn:E; intros [= <-]; [apply Qeq_bool_eq in E; rewrite E; reflexivity|reflexivity].
  - apply sent_obj.
    + constructor; [|constructor; [|constructor]]; cbn; [intros [H|[]]; discriminate|auto].
    + intros k. cbn. tauto.
    + intros k v v' (l1 & l2 & E & HL) [[= <- <-]|[[= <- <-]|[]]].
      * destruct l1 as [|p1 [|p2 [|p3 l1]]]; cbn in E; try discriminate; injection E as E; subst; try discriminate; [|destruct l1; discriminate].
        constructor. constructor; constructor.
      * destruct l1 as [|p1 [|p2 [|p3 l1]]]; cbn in E; try discriminate; injection E as E; subst; try discriminate; try (destruct l1; discriminate).
        -- elim (HL (JNum 3)). right. now left.
        -- constructor. reflexivity.
Qed.

(** but whole numbers beyond 53 bits are not among them: whatever number of that format is
    chosen for 2^53+1, another one is sent. *)
Definition double (q : Q) : Prop := exists m e, (Z.abs m < 2 ^ 53)%Z /\ (0 <= e)%Z /\
  (q == inject_Z (m * 2 ^ e) \/ q * inject_Z (2 ^ e) == inject_Z m)%Q.
Theorem variables_exact_refuted : forall float, (forall q q', float q = Some q' -> double q') ->
    forall j', sent_as float (JObj [(lit "id", JNum 9007199254740993)]) j' -> ~ same_value (JObj [(lit "id", JNum 9007199254740993)]) j'.
Proof.
  intros float HF j' H HS. inversion H as [| | | | |l l' HN HK HV]; subst.
  assert (HI : In (lit "id") (map fst l')) by (apply HK; now left). apply in_map_iff in HI. destruct HI as ([k v'] & E & HI). cbn in E. subst k.
  assert (HL : last_of (lit "id") [(lit "id", JNum 9007199254740993)] (JNum 9007199254740993)) by (exists [], []; split; [reflexivity|intros v []]).
  pose proof (HV _ _ _ HL HI) as H1. inversion H1 as [| | |q q' HQ| |]; subst.
  inversion HS as [| | | | |l1 l1' HN1 HK1 HV1]; subst. pose proof (HV1 _ _ _ HL HI) as H2. inversion H2 as [| | |q2 q2' HQ2| |]; subst.
  destruct (HF _ _ HQ) as (m & e & Hm & He & [HE|HE]); rewrite <- HQ2 in HE; change (2 ^ 53)%Z with 9007199254740992%Z in Hm.
  - assert (HZ : (9007199254740993 = m * 2 ^ e)%Z) by (apply inject_Z_injective; exact HE).
    destruct (Z.eq_dec e 0) as [->|HE0]; [rewrite Z.pow_0_r in HZ; lia|].
    replace e with (1 + (e - 1))%Z in HZ by lia. rewrite Z.pow_add_r in HZ by lia. change (2 ^ 1)%Z with 2%Z in HZ.
    assert (HO : (Z.odd (m * (2 * 2 ^ (e - 1))) = false)%Z) by (rewrite !Z.odd_mul; cbn; now rewrite andb_false_r).
    rewrite <- HZ in HO. discriminate.
  - assert (HZ : (9007199254740993 * 2 ^ e = m)%Z) by (apply inject_Z_injective; rewrite inject_Z_mult; exact HE).
    assert (HP : (1 <= 2 ^ e)%Z) by (pose proof (Z.pow_pos_nonneg 2 e); lia). nia.
Qed.
(** Such a float and such a value: 2^53+1 becomes 2^53. *)
Example variables_exact_refuted_ex : exists float,
  (forall q q', float q = Some q' -> double q') /\
  parse_variables float (fun _ => Some (JObj [(lit "id", JNum 9007199254740993)])) [] = Ok (Some [(lit "id", JNum 9007199254740992)]).
Proof.
  exists (fun q => if Qeq_bool q 9007199254740993 then Some 9007199254740992%Q else None). split; [|vm_compute; reflexivity].
  intros q q'. destruct (Qeq_bool q 9007199254740993); [|discriminate]. intros [= <-]. exists 1%Z, 53%Z. split; [reflexivity|]. split; [discriminate|]. left. reflexivity.
Qed.
Print Assumptions variables_read.
Print Assumptions variables_sent.
Print Assumptions variables_exact.
Print Assumptions variables_exact_refuted.
