(** Proofs about the per-table results of a plan. *)
From Coq Require Import String List NArith ZArith QArith Bool Lia Arith.
From Verif Require Import Base ExplainTree ExplainSpec ExplainTreeProofs SingleTable SingleTableSpec.
Import ListNotations.
Local Open Scope nat_scope.

Definition uses (c : tree explain_node) (cur : option table_tree) : bool := snd (to_trees c cur).
Definition outs (c : tree explain_node) (cur : option table_tree) := fst (to_trees c cur).

Fixpoint run (root : bool) (cs : list (tree explain_node)) (current : option table_tree) (used : bool)
  : list (option table_tree) * bool :=
  match cs with
  | [] => ([], used)
  | c :: cs' =>
      let '(out, u) := to_trees c current in
      if u then
        let '(out', used') := run root cs' None true in
        (out ++ (if root then [current] else []) ++ out', used')
      else
        let '(out', used') := run root cs' current used in
        (out ++ out', used')
  end.
Definition fresh_of (n : explain_node) : option table_tree :=
  if is_empty (en_table n) then None else Some {| tt_name := en_table n; tt_nodes := [n] |}.
Definition joins (n : explain_node) (cur : option table_tree) : bool :=
  match cur with Some t => seqb (en_table n) (tt_name t) | None => false end.
Definition next (n : explain_node) (cur : option table_tree) : option table_tree :=
  match cur with
  | Some t => if seqb (en_table n) (tt_name t) then Some {| tt_name := tt_name t; tt_nodes := tt_nodes t ++ [n] |}
              else fresh_of n
  | None => fresh_of n
  end.
Definition is_root (n : explain_node) (cur : option table_tree) : bool :=
  (negb (joins n cur) && negb (is_empty (en_table n)))%bool.
Definition left_out (n : explain_node) (cur : option table_tree) : list (option table_tree) :=
  match cur with Some t => if seqb (en_table n) (tt_name t) then [] else [Some t] | None => [] end.

Lemma to_trees_eq : forall n cs cur, to_trees (Node n cs) cur =
    if (match cs with [] => true | _ => false end && is_root n cur)%bool
    then (left_out n cur ++ [next n cur], false)
    else (left_out n cur ++ fst (run (is_root n cur) cs (next n cur) (joins n cur)),
          snd (run (is_root n cur) cs (next n cur) (joins n cur))).
Proof.
  intros n cs cur.
  assert (HR : forall root l cu u,
    (fix loop (cs : list (tree explain_node)) (current : option table_tree)
                      (used : bool) : list (option table_tree) * bool :=
        match cs with
        | [] => ([], used)
        | c :: cs' =>
            let '(out, u) := to_trees c current in
            if u then
              let '(out', used') := loop cs' None true in
              (out ++ (if root : bool then [current] else []) ++ out', used')
            else
              let '(out', used') := loop cs' current used in
              (out ++ out', used')
        end) l cu u = run root l cu u).
  { intros root l. induction l as [|c l IH]; intros cu u; auto. cbn [run].
    destruct (to_trees c cu) as [out [|]]; now rewrite IH. }
  assert (HD : (let fresh := fresh_of n in
      let is_some (o : option table_tree) := match o with Some _ => true | None => false end in
      match cur with
        | None => ([], fresh, false, is_some fresh)
        | Some t =>
            if seqb (en_table n) (tt_name t)
            then ([], Some {| tt_name := tt_name t; tt_nodes := tt_nodes t ++ [n] |}, true, false)
            else ([Some t], fresh, false, is_some fresh)
        end) = (left_out n cur, next n cur, joins n cur, is_root n cur)).
  { unfold is_root, joins, next, left_out, fresh_of.
    destruct cur as [t|]; [destruct (seqb (en_table n) (tt_name t))|]; destruct (is_empty (en_table n)); reflexivity. }
  cbv zeta in HD. unfold fresh_of in HD. cbn [to_trees]. rewrite HD. rewrite HR.
  destruct (run (is_root n cur) cs (next n cur) (joins n cur)). reflexivity.
Qed.

Lemma run_used_true : forall cs root cur, snd (run root cs cur true) = true.
Proof.
  induction cs as [|c cs IH]; intros root cur; auto. cbn [run].
  destruct (to_trees c cur) as [out [|]].
  - specialize (IH root None). destruct (run root cs None true). exact IH.
  - specialize (IH root cur). destruct (run root cs cur true). exact IH.
Qed.
Lemma run_used : forall cs root cur used, snd (run root cs cur used) = (used || existsb (fun c => uses c cur) cs)%bool.
Proof.
  induction cs as [|c cs IH]; intros root cur used; [now destruct used|].
  cbn [run existsb]. unfold uses at 1. destruct (to_trees c cur) as [out [|]]; cbn [snd].
  - pose proof (run_used_true cs root None) as H. destruct (run root cs None true). simpl in *. rewrite H.
    now rewrite orb_true_r.
  - specialize (IH root cur used). destruct (run root cs cur used). simpl in *. exact IH.
Qed.
(** The current tree when a child is reached. *)
Definition after_elder (cur : option table_tree) (elder : list (tree explain_node)) : option table_tree :=
  if existsb (fun d => uses d cur) elder then None else cur.
Lemma run_in : forall cs root cur used e, In e (fst (run root cs cur used)) <->
    exists elder c younger, cs = elder ++ c :: younger /\
      (In e (outs c (after_elder cur elder)) \/
       (root = true /\ uses c (after_elder cur elder) = true /\ e = after_elder cur elder)).
Proof.
  induction cs as [|c cs IH]; intros root cur used e.
  - cbn [run fst]. split; [intros []|]. intros ([|x elder] & d & younger & E & _); discriminate.
  - assert (HS : In e (fst (run root (c :: cs) cur used)) <->
       (In e (outs c cur) \/ (root = true /\ uses c cur = true /\ e = cur)) \/
       In e (fst (run root cs (if uses c cur then None else cur) (used || uses c cur)))).
    { cbn [run]. unfold outs, uses. destruct (to_trees c cur) as [out [|]]; cbn [fst snd].
      - rewrite orb_true_r. destruct (run root cs None true). cbn [fst].
        rewrite !in_app_iff. destruct root; simpl; intuition.
      - rewrite orb_false_r. destruct (run root cs cur used). cbn [fst]. rewrite in_app_iff. intuition discriminate. }
    rewrite HS, IH. clear HS.
    assert (HA : forall elder, after_elder (if uses c cur then None else cur) elder = after_elder cur (c :: elder)).
    { intros elder. unfold after_elder. cbn [existsb]. destruct (uses c cur); cbn [orb]; auto.
      now destruct (existsb (fun d => uses d None) elder). }
    split.
    + intros [H|(elder & d & younger & -> & H)].
      * exists [], c, cs. split; auto.
      * exists (c :: elder), d, younger. split; auto. now rewrite <- HA.
    + intros ([|x elder] & d & younger & E & H); simpl in E; inversion E; subst.
      * left. exact H.
      * right. exists elder, d, younger. split; auto. now rewrite HA.
Qed.

Lemma empty_true : forall s : gostring, is_empty s = true <-> s = [].
Proof. intros [|c s]; simpl; split; congruence. Qed.
Lemma empty_false : forall s : gostring, is_empty s = false <-> s <> [].
Proof. intros [|c s]; simpl; split; congruence. Qed.

(** ** Use *)
Lemma uses_node : forall n cs cur, uses (Node n cs) cur = (joins n cur || existsb (fun c => uses c (next n cur)) cs)%bool.
Proof.
  intros n cs cur. unfold uses at 1. rewrite to_trees_eq.
  destruct (match cs with [] => true | _ => false end && is_root n cur)%bool eqn:E; cbn [snd].
  - apply andb_true_iff in E. destruct E as [E1 E2]. destruct cs; [|discriminate].
    unfold is_root in E2. apply andb_true_iff in E2. destruct E2 as [E2 _]. apply negb_true_iff in E2. now rewrite E2.
  - apply run_used.
Qed.
Definition named (cur : option table_tree) (s : gostring) : Prop :=
  exists t, cur = Some t /\ tt_name t = s.
Lemma joins_iff : forall n cur, joins n cur = true <-> named cur (en_table n).
Proof.
  intros n [t|]; unfold named; simpl.
  - rewrite seqb_eq. split; [intros E; exists t; auto|]. intros (t' & E & H). inversion E; subst. auto.
  - split; [discriminate|]. intros (t & E & _). discriminate.
Qed.
(** No tree ever has an empty name. *)
Definition sound (cur : option table_tree) : Prop :=
  match cur with Some t => tt_name t <> [] /\ tt_nodes t <> [] | None => True end.
Lemma next_sound : forall n cur, sound cur -> sound (next n cur).
Proof.
  intros n cur H. unfold next, fresh_of. destruct cur as [t|]; [destruct (seqb (en_table n) (tt_name t))|];
    try (destruct (is_empty (en_table n)) eqn:E; [exact I|simpl; split; [now apply empty_false|congruence]]).
  destruct H as [H1 H2]. simpl. split; auto. destruct (tt_nodes t); simpl; congruence.
Qed.
Lemma next_named : forall n cur s, sound cur -> (named (next n cur) s <-> s <> [] /\ s = en_table n).
Proof.
  intros n cur s Hs. unfold named, next, fresh_of.
  assert (HF : (exists t, (if is_empty (en_table n) then None else Some {| tt_name := en_table n; tt_nodes := [n] |}) = Some t /\ tt_name t = s) <->
     s <> [] /\ s = en_table n).
  { destruct (is_empty (en_table n)) eqn:E.
    - apply empty_true in E. rewrite E. split; [intros (t & H & _); discriminate|tauto].
    - apply empty_false in E. split.
      + intros (t & H & <-). inversion H; subst. simpl. auto.
      + intros [_ ->]. eexists. split; reflexivity. }
  destruct cur as [t|]; auto. destruct (seqb (en_table n) (tt_name t)) eqn:E; auto.
  apply seqb_eq in E. destruct Hs as [Hs _]. split.
  - intros (t' & H & <-). inversion H; subst. simpl. split; congruence.
  - intros [_ ->]. eexists. split; [reflexivity|]. simpl. congruence.
Qed.
Lemma uses_iff : forall t cur, sound cur -> (uses t cur = true <-> named cur (table_of t) \/ same_pair t).
Proof.
  apply (tree_ind' (fun t => forall cur, sound cur -> (uses t cur = true <-> named cur (table_of t) \/ same_pair t))).
  intros n cs IH cur Hs. rewrite uses_node, orb_true_iff, joins_iff.
  assert (HC : existsb (fun c => uses c (next n cur)) cs = true <-> same_pair (Node n cs)).
  { rewrite existsb_exists. rewrite Forall_forall in IH. split.
    - intros (c & Hc & Hu). apply IH in Hu; auto using next_sound. destruct Hu as [Hu|Hu].
      + apply next_named in Hu; auto. destruct Hu. eapply sp_here; eauto. congruence.
      + eapply sp_below; eauto.
    - intros H. inversion H as [? ? c Hc Hn Ht|? ? c Hc Hsp]; subst; exists c; split; auto; apply IH; auto using next_sound.
      left. apply next_named; auto. split; congruence. }
  unfold table_of at 1. cbn [t_val]. tauto.
Qed.

(** ** Output *)
(** Subtrees as seen from a node reached with a current tree. *)
Definition begins_with (cur : option table_tree) (o : option (explain_node * list (tree explain_node)))
  (c : tree explain_node) : Prop :=
  table_of c <> [] /\
  match o with
  | None => ~ named cur (table_of c)
  | Some (p, elder) => table_of c <> en_table p \/ Exists (continues p) elder
  end.
Lemma subtree_trans : forall t o u o' v, subtree t o u -> subtree u o' v ->
    match o' with None => v = u | Some _ => subtree t o' v end.
Proof.
  intros t o u o' v H1 H2. induction H2 as [|o' p elder c younger H2 IH]; auto.
  destruct o' as [[q el]|].
  - eapply sub_child. exact IH.
  - subst u. eapply sub_child. exact H1.
Qed.
Lemma subtree_cases : forall n cs o v, subtree (Node n cs) o v ->
    (o = None /\ v = Node n cs) \/
    exists elder c younger o', cs = elder ++ c :: younger /\ subtree c o' v /\
      match o' with None => o = Some (n, elder) | Some _ => o = o' end.
Proof.
  intros n cs o v H. induction H as [|o p elder c younger H IH]; [auto|right].
  destruct IH as [[-> E]|(el & d & yo & o' & -> & Hs & Ho)].
  - inversion E; subst. exists elder, c, younger, None. split; auto. split; auto. constructor.
  - exists el, d, yo, (Some (p, elder)). split; auto. split; [|reflexivity]. eapply sub_child. exact Hs.
Qed.
Lemma subtree_up : forall n elder c younger o v, subtree c o v ->
    subtree (Node n (elder ++ c :: younger)) (match o with None => Some (n, elder) | _ => o end) v.
Proof.
  intros n elder c younger o v H. induction H as [|o p el d yo H IH].
  - eapply sub_child. constructor.
  - eapply sub_child. exact IH.
Qed.

Definition head_with (cur : option table_tree) (t : tree explain_node) (n : explain_node) : Prop :=
  exists o c, subtree t o c /\ begins_with cur o c /\ t_val c = n.
Definition bad_with (cur : option table_tree) (t : tree explain_node) : Prop :=
  exists o p elder c younger, subtree t o (Node p (elder ++ c :: younger)) /\
    begins_with cur o (Node p (elder ++ c :: younger)) /\
    Exists (continues p) elder /\ same_pair c.

Lemma continues_iff : forall n cur elder, sound cur ->
    existsb (fun d => uses d (next n cur)) elder = true <->
    Exists (fun d => (en_table n <> [] /\ table_of d = en_table n) \/ same_pair d) elder.
Proof.
  intros n cur elder Hs. rewrite existsb_exists, Exists_exists.
  split; intros (d & Hd & H); exists d; split; auto.
  - apply uses_iff in H; auto using next_sound. destruct H as [H|H]; auto.
    apply next_named in H; auto. destruct H as [H1 H2]. left. split; congruence.
  - apply uses_iff; auto using next_sound. destruct H as [[H1 H2]|H]; auto.
    left. apply next_named; auto. split; congruence.
Qed.
Lemma after_named : forall n cur elder s, sound cur -> s <> [] ->
    (~ named (after_elder (next n cur) elder) s <-> s <> en_table n \/ Exists (continues n) elder).
Proof.
  intros n cur elder s Hs Hne. unfold after_elder.
  destruct (existsb (fun d => uses d (next n cur)) elder) eqn:E.
  - apply continues_iff in E; auto. split; [|intros _ (t & H & _); discriminate]. intros _. right.
    eapply Exists_impl; [|exact E]. intros d [[_ H]|H]; [now left|now right].
  - rewrite next_named by auto. split.
    + intros H. left. intros ->. apply H. auto.
    + intros [H|H] [H1 H2]; [congruence|]. subst s.
      assert (HX : existsb (fun d => uses d (next n cur)) elder = true); [|congruence].
      apply continues_iff; auto. eapply Exists_impl; [|exact H]. intros d [Hd|Hd]; auto.
Qed.
Lemma after_sound : forall n cur elder, sound cur -> sound (after_elder (next n cur) elder).
Proof.
  intros n cur elder H. unfold after_elder. destruct (existsb _ elder); [exact I|now apply next_sound].
Qed.

Lemma begins_up : forall n cur elder c o v, sound cur -> subtree c o v ->
    (begins_with (after_elder (next n cur) elder) o v <->
     begins_with cur (match o with None => Some (n, elder) | _ => o end) v).
Proof.
  intros n cur elder c o v Hs Hv. unfold begins_with. destruct o as [[p el]|]; [tauto|].
  split; intros [H1 H2]; split; auto; eapply after_named; eauto.
Qed.
Lemma head_with_node : forall n cs cur m, sound cur ->
    (head_with cur (Node n cs) m <->
     (m = n /\ is_root n cur = true) \/
     exists elder c younger, cs = elder ++ c :: younger /\ head_with (after_elder (next n cur) elder) c m).
Proof.
  intros n cs cur m Hs.
  assert (HR : is_root n cur = true <-> en_table n <> [] /\ ~ named cur (en_table n)).
  { unfold is_root. rewrite andb_true_iff, !negb_true_iff, empty_false, <- joins_iff.
    rewrite <- not_true_iff_false. tauto. }
  split.
  - intros (o & v & Hv & HB & <-). destruct (subtree_cases _ _ _ _ Hv) as [[-> ->]|(elder & c & younger & o' & -> & Hs' & Ho)].
    + left. split; auto. apply HR. exact HB.
    + right. exists elder, c, younger. split; auto. exists o', v. split; auto. split; auto.
      eapply begins_up; eauto. destruct o'; subst o; exact HB.
  - intros [[-> H]|(elder & c & younger & -> & (o & v & Hv & HB & <-))].
    + exists None, (Node n cs). split; [constructor|]. split; auto. apply HR in H. exact H.
    + exists (match o with None => Some (n, elder) | _ => o end), v. split; [now apply subtree_up|].
      split; auto. eapply begins_up; eauto.
Qed.
Lemma bad_with_node : forall n cs cur, sound cur ->
    (bad_with cur (Node n cs) <->
     (is_root n cur = true /\ exists elder c younger, cs = elder ++ c :: younger /\
        Exists (continues n) elder /\ same_pair c) \/
     exists elder c younger, cs = elder ++ c :: younger /\ bad_with (after_elder (next n cur) elder) c).
Proof.
  intros n cs cur Hs.
  assert (HR : is_root n cur = true <-> en_table n <> [] /\ ~ named cur (en_table n)).
  { unfold is_root. rewrite andb_true_iff, !negb_true_iff, empty_false, <- joins_iff.
    rewrite <- not_true_iff_false. tauto. }
  split.
  - intros (o & p & el & d & yo & Hv & HB & H1 & H2).
    destruct (subtree_cases _ _ _ _ Hv) as [[-> E]|(elder & c & younger & o' & -> & Hs' & Ho)].
    + inversion E; subst. left. split; [apply HR; exact HB|]. exists el, d, yo. auto.
    + right. exists elder, c, younger. split; auto. exists o', p, el, d, yo. split; auto. split; auto.
      eapply begins_up; eauto. destruct o'; subst o; exact HB.
  - intros [[H (el & d & yo & -> & H1 & H2)]|(elder & c & younger & -> & (o & p & el & d & yo & Hv & HB & H1 & H2))].
    + exists None, n, el, d, yo. split; [constructor|]. split; auto. apply HR in H. exact H.
    + exists (match o with None => Some (n, elder) | _ => o end), p, el, d, yo. split; [now apply subtree_up|].
      split; auto. eapply begins_up; eauto.
Qed.

Definition same_key (a b : table_tree) : Prop :=
  tt_name a = tt_name b /\ hd_error (tt_nodes a) = hd_error (tt_nodes b).
Definition of_node (a : table_tree) (n : explain_node) : Prop :=
  tt_name a = en_table n /\ hd_error (tt_nodes a) = Some n.

Lemma next_root : forall n cur, is_root n cur = true -> next n cur = Some {| tt_name := en_table n; tt_nodes := [n] |}.
Proof.
  intros n cur H. unfold is_root, joins in H. apply andb_true_iff in H. destruct H as [H1 H2].
  apply negb_true_iff in H1, H2. unfold next, fresh_of. rewrite H2. destruct cur; auto. now rewrite H1.
Qed.
Lemma next_not_root : forall n cur t', is_root n cur = false -> next n cur = Some t' -> sound cur ->
    exists t, cur = Some t /\ same_key t' t.
Proof.
  intros n cur t' H E Hs. unfold is_root, joins in H. unfold next, fresh_of in E.
  destruct cur as [t|].
  - destruct (seqb (en_table n) (tt_name t)).
    + exists t. split; auto. inversion E; subst. destruct Hs as [_ Hs]. split; auto. simpl.
      destruct (tt_nodes t); [congruence|reflexivity].
    + cbn [negb andb] in H. apply negb_false_iff in H. rewrite H in E. discriminate.
  - cbn [negb andb] in H. apply negb_false_iff in H. rewrite H in E. discriminate.
Qed.

Lemma outs_node : forall n cs cur e, In e (outs (Node n cs) cur) <->
    In e (left_out n cur) \/ (cs = [] /\ is_root n cur = true /\ e = next n cur) \/
    exists elder c younger, cs = elder ++ c :: younger /\
      let cc := after_elder (next n cur) elder in
      (In e (outs c cc) \/ (is_root n cur = true /\ uses c cc = true /\ e = cc)).
Proof.
  intros n cs cur e. unfold outs at 1. rewrite to_trees_eq.
  destruct (match cs with [] => true | _ => false end && is_root n cur)%bool eqn:E; cbn [fst]; rewrite in_app_iff.
  - apply andb_true_iff in E. destruct E as [E1 E2]. destruct cs; [|discriminate]. simpl. split.
    + intros [H|[H|[]]]; auto.
    + intros [H|[(_ & _ & H)|([|x el] & c & yo & H & _)]]; auto; discriminate.
  - rewrite run_in. apply andb_false_iff in E. split.
    + intros [H|H]; auto.
    + intros [H|[(-> & H & _)|H]]; auto. destruct E; congruence.
Qed.

Lemma nil_iff : forall t cur, sound cur -> (In None (outs t cur) <-> bad_with cur t).
Proof.
  apply (tree_ind' (fun t => forall cur, sound cur -> (In None (outs t cur) <-> bad_with cur t))).
  intros n cs IH cur Hs. rewrite outs_node, bad_with_node by auto. rewrite Forall_forall in IH. split.
  - intros [H|[(_ & H1 & H2)|(elder & c & younger & E & H)]].
    + unfold left_out in H. destruct cur as [t|]; [destruct (seqb _ _)|]; simpl in H; intuition discriminate.
    + rewrite next_root in H2; auto. discriminate.
    + cbv zeta in H. destruct H as [H|(H1 & H2 & H3)].
      * right. exists elder, c, younger. split; auto. apply IH; auto.
        -- subst cs. apply in_app_iff. right. left. reflexivity.
        -- now apply after_sound.
      * left. split; auto. exists elder, c, younger. split; auto.
        rewrite <- H3 in H2. apply uses_iff in H2; [|exact I].
        destruct H2 as [(t & Ht & _)|H2]; [discriminate|]. split; auto.
        unfold after_elder in H3. destruct (existsb (fun d => uses d (next n cur)) elder) eqn:EX.
        -- apply continues_iff in EX; auto. eapply Exists_impl; [|exact EX]. intros d [[_ K]|K]; [now left|now right].
        -- rewrite next_root in H3; auto. discriminate.
  - intros [[H (elder & c & younger & E & H1 & H2)]|(elder & c & younger & E & H)].
    + right; right. exists elder, c, younger. split; auto. cbv zeta. right. split; auto.
      assert (EX : existsb (fun d => uses d (next n cur)) elder = true).
      { apply continues_iff; auto. eapply Exists_impl; [|exact H1]. intros d [K|K]; auto. left. split; auto.
        unfold is_root in H. apply andb_true_iff in H. destruct H as [_ H]. apply negb_true_iff in H. now apply empty_false. }
      unfold after_elder. rewrite EX. split; auto. apply uses_iff; [exact I|auto].
    + right; right. exists elder, c, younger. split; auto. cbv zeta. left. apply IH; auto.
      * subst cs. apply in_app_iff. right. left. reflexivity.
      * now apply after_sound.
Qed.

Lemma after_some : forall n cur elder t, after_elder (next n cur) elder = Some t -> next n cur = Some t.
Proof. intros n cur elder t H. unfold after_elder in H. destruct (existsb _ elder); congruence. Qed.
Lemma some_sound : forall t cur a, sound cur -> In (Some a) (outs t cur) ->
    (exists n, head_with cur t n /\ of_node a n) \/ (exists b, cur = Some b /\ same_key a b).
Proof.
  apply (tree_ind' (fun t => forall cur a, sound cur -> In (Some a) (outs t cur) ->
    (exists n, head_with cur t n /\ of_node a n) \/ (exists b, cur = Some b /\ same_key a b))).
  intros n cs IH cur a Hs H. rewrite Forall_forall in IH. apply outs_node in H.
  assert (HN : forall b, next n cur = Some b -> same_key a b ->
    (exists m, head_with cur (Node n cs) m /\ of_node a m) \/ (exists b, cur = Some b /\ same_key a b)).
  { intros b Hb [K1 K2]. destruct (is_root n cur) eqn:ER.
    - left. exists n. split; [apply head_with_node; auto|]. rewrite next_root in Hb by auto. inversion Hb; subst.
      split; auto.
    - right. destruct (next_not_root n cur b ER Hb Hs) as (t & -> & K3 & K4). exists t. split; auto. split; congruence. }
  destruct H as [H|[(_ & H1 & H2)|(elder & c & younger & -> & H)]].
  - right. unfold left_out in H. destruct cur as [t|]; [|elim H].
    destruct (seqb (en_table n) (tt_name t)); [elim H|]. destruct H as [H|[]]. inversion H; subst.
    exists a. split; auto. split; auto.
  - apply (HN a); auto. split; auto.
  - cbv zeta in H. destruct H as [H|(H1 & _ & H3)].
    + apply IH in H; [|apply in_app_iff; right; left; reflexivity|now apply after_sound].
      destruct H as [(m & Hm & Ho)|(b & Hb & K)].
      * left. exists m. split; auto. apply head_with_node; auto. right. exists elder, c, younger. auto.
      * apply after_some in Hb. eauto.
    + symmetry in H3. apply after_some in H3. apply (HN a); auto. split; auto.
Qed.
Lemma some_complete : forall t cur, sound cur ->
    (forall n, head_with cur t n -> exists a, In (Some a) (outs t cur) /\ of_node a n) /\
    (forall b, cur = Some b -> tt_name b <> table_of t -> exists a, In (Some a) (outs t cur) /\ same_key a b).
Proof.
  apply (tree_ind' (fun t => forall cur, sound cur ->
    (forall n, head_with cur t n -> exists a, In (Some a) (outs t cur) /\ of_node a n) /\
    (forall b, cur = Some b -> tt_name b <> table_of t -> exists a, In (Some a) (outs t cur) /\ same_key a b))).
  intros n cs IH cur Hs. rewrite Forall_forall in IH. split.
  - intros m Hm. apply head_with_node in Hm; auto.
    destruct Hm as [[-> HR]|(elder & c & younger & -> & Hm)].
    + pose proof (next_root _ _ HR) as EN.
      destruct cs as [|c cs].
      * exists {| tt_name := en_table n; tt_nodes := [n] |}. split; [|split; reflexivity].
        apply outs_node. right; left. split; auto.
      * destruct (uses c (next n cur)) eqn:EU.
        -- exists {| tt_name := en_table n; tt_nodes := [n] |}. split; [|split; reflexivity].
           apply outs_node. right; right.
           exists [], c, cs. split; [reflexivity|]. cbv zeta. right. unfold after_elder. cbn [existsb]. auto.
        -- destruct (IH c (or_introl eq_refl) (next n cur) (next_sound _ _ Hs)) as [_ HB].
           destruct (HB _ EN) as (a & Ha & K).
           { simpl. intros E. apply not_true_iff_false in EU. apply EU. apply uses_iff; auto using next_sound.
             left. rewrite EN. eexists. split; eauto. }
           exists a. split.
           ++ apply outs_node. right; right. exists [], c, cs. split; [reflexivity|]. cbv zeta. left. exact Ha.
           ++ destruct K as [K1 K2]. split; auto.
    + destruct (IH c ltac:(apply in_app_iff; right; left; reflexivity) (after_elder (next n cur) elder)
                  (after_sound _ _ _ Hs)) as [HA _].
      destruct (HA _ Hm) as (a & Ha & K). exists a. split; auto. apply outs_node. right; right.
      exists elder, c, younger. split; auto.
  - intros b -> Hb. exists b. split; [|split; reflexivity]. apply outs_node. left.
    unfold left_out. destruct (seqb (en_table n) (tt_name b)) eqn:E; [|left; reflexivity].
    apply seqb_eq in E. elim Hb. unfold table_of. simpl. congruence.
Qed.

(** ** Results *)
Lemma begins_with_none : forall o c, begins_with None o c <-> begins_result o c.
Proof.
  intros o c. unfold begins_with, begins_result. destruct o; [tauto|]. split; intros [H _]; split; auto.
  intros (t & E & _). discriminate.
Qed.
Lemma head_with_none : forall t n, head_with None t n <-> result_head t n.
Proof.
  intros t n. unfold head_with, result_head.
  split; intros (o & c & H1 & H2 & H3); exists o, c; split; auto; split; auto; now apply begins_with_none.
Qed.
Lemma bad_with_none : forall t, bad_with None t <-> indigestible t.
Proof.
  intros t. unfold bad_with, indigestible.
  split; intros (o & p & el & c & yo & H1 & H2 & H3); exists o, p, el, c, yo; split; auto; split; auto; now apply begins_with_none.
Qed.

Definition entry (r : single_result) (n : explain_node) : Prop := sr_table r = en_table n /\ sr_time r = en_time n.
Lemma to_results_spec : forall trees, (forall a, In (Some a) trees -> tt_nodes a <> []) ->
    match to_results trees with
    | Ok rs => Forall2 (fun o r => exists a n, o = Some a /\ hd_error (tt_nodes a) = Some n /\
                                     sr_table r = tt_name a /\ sr_time r = en_time n) trees rs
    | Panic => In None trees
    | Err _ => False
    end.
Proof.
  induction trees as [|[a|] trees IH]; intros H; cbn [to_results].
  - constructor.
  - destruct (tt_nodes a) as [|n ns] eqn:E; [elim (H a); auto; now left|].
    assert (H' : forall b, In (Some b) trees -> tt_nodes b <> []) by (intros; apply H; right; auto).
    specialize (IH H'). destruct (to_results trees) as [rs|m|]; cbn [obind]; auto.
    + constructor; auto. exists a, n. rewrite E. auto.
    + right. exact IH.
  - left. reflexivity.
Qed.
Theorem results_spec : forall t,
    match single_table_results t with
    | Ok rs => ~ indigestible t /\
        (forall r, In r rs -> exists n, result_head t n /\ entry r n) /\
        (forall n, result_head t n -> exists r, In r rs /\ entry r n)
    | Panic => indigestible t
    | Err _ => False
    end.
Proof.
  intros t. unfold single_table_results. fold (outs t None).
  assert (HNE : forall a, In (Some a) (outs t None) -> exists n, result_head t n /\ of_node a n).
  { intros a Ha. apply some_sound in Ha; [|exact I]. destruct Ha as [(n & Hn & Ho)|(b & E & _)]; [|discriminate].
    exists n. split; auto. now apply head_with_none. }
  pose proof (to_results_spec (outs t None)) as H.
  assert (HN : forall a, In (Some a) (outs t None) -> tt_nodes a <> []).
  { intros a Ha E. destruct (HNE a Ha) as (n & _ & _ & K). rewrite E in K. discriminate. }
  specialize (H HN). destruct (to_results (outs t None)) as [rs|m|] eqn:ER; auto.
  - split; [|split].
    + rewrite <- bad_with_none, <- nil_iff by exact I. intros Hi.
      clear - H Hi. induction H as [|o r os rs' (a & n & -> & _) H IH]; [elim Hi|].
      destruct Hi as [Hi|Hi]; [discriminate|auto].
    + intros r Hr.
      assert (HX : exists a n, In (Some a) (outs t None) /\ hd_error (tt_nodes a) = Some n /\
          sr_table r = tt_name a /\ sr_time r = en_time n).
      { clear - H Hr. induction H as [|o r' os rs' (a & n & -> & H1 & H2 & H3) H IH]; [elim Hr|].
        destruct Hr as [->|Hr].
        - exists a, n. split; [now left|auto].
        - destruct (IH Hr) as (a' & n' & Hi & K). exists a', n'. split; [now right|auto]. }
      destruct HX as (a & n & Hi & H1 & H2 & H3). destruct (HNE a Hi) as (n' & Hh & K1 & K2).
      exists n'. split; auto. split; congruence.
    + intros n Hn. destruct (some_complete t None I) as [HC _]. apply head_with_none in Hn.
      destruct (HC n Hn) as (a & Ha & K1 & K2). clear - H Ha K1 K2.
      induction H as [|o r' os rs' (b & m & -> & H1 & H2 & H3) H IH]; [elim Ha|].
      destruct Ha as [Ha|Ha].
      * inversion Ha; subst. exists r'. split; [now left|]. split; congruence.
      * destruct (IH Ha) as (r & Hi & K). exists r. split; auto. now right.
  - rewrite <- bad_with_none, <- nil_iff by exact I. exact H.
Qed.

(** Every table named anywhere is reported, with a node of that table. *)
Lemma named_has_head : forall t o c, subtree t o c -> table_of c <> [] ->
    exists n, result_head t n /\ en_table n = table_of c.
Proof.
  intros t o c H. induction H as [|o p elder c younger H IH]; intros Hne.
  - exists (t_val t). split; auto. exists None, t. split; [constructor|]. split; auto. split; auto.
  - destruct (list_eq_dec N.eq_dec (table_of c) (en_table p)) as [E|E].
    + destruct IH as (n & Hn & En); [unfold table_of; simpl; congruence|]. exists n. split; auto.
      unfold table_of in *. simpl in *. congruence.
    + exists (t_val c). split; auto. exists (Some (p, elder)), c. split; [eapply sub_child; exact H|]. split; auto. split; auto.
Qed.
Lemma preorder_subtree : forall t n, In n (preorder t) <-> exists o c, subtree t o c /\ t_val c = n.
Proof.
  intros t n. split.
  - revert t. apply (tree_ind' (fun t => In n (preorder t) -> exists o c, subtree t o c /\ t_val c = n)).
    intros a cs IH H. cbn [preorder] in H. destruct H as [->|H].
    + exists None, (Node n cs). split; [constructor|auto].
    + apply in_flat_map in H. destruct H as (c & Hc & Hn). rewrite Forall_forall in IH.
      destruct (IH c Hc Hn) as (o & d & Hd & <-). apply in_split in Hc. destruct Hc as (el & yo & ->).
      eexists _, d. split; [|reflexivity]. apply (subtree_up a el c yo o d Hd).
  - intros (o & c & H & <-).
    assert (HX : incl (preorder c) (preorder t)).
    { induction H as [|o p el c yo H IH]; [apply incl_refl|]. intros x Hx. apply IH. cbn [preorder]. right.
      apply in_flat_map. exists c. split; auto. apply in_app_iff. right. left. reflexivity. }
    apply HX. destruct c; simpl; auto.
Qed.
