(** C24-C27, C64-C70: PostgreSQL statements. *)
From Coq Require Import String List NArith Bool Lia Arith Permutation.
From Verif Require Import Base IndexText IndexBuild IndexBuildSpec IndexBuildProofs TableFields TableFieldsSpec TableFieldsProofs
  BuildSpec BuildProofs BuildProperties Existing ExistingSpec ExistingProofs ExistingProperties
  PgAst PgCollect PgSpec PgProofs PgTreeProofs PgRegionProofs PgWalkSpec PgWalkProofs PgFlowProofs.
From Verif Require MysqlProperties MysqlProofs.
Import ListNotations.
Local Open Scope string_scope.
Local Open Scope list_scope.

(** ** Concrete data *)
Definition low (s : gostring) : gostring := map MysqlProperties.ascii_low s.
Definition public := lit "public".
Definition nm_ (t c : string) : node := Name false (of_string c :: match t with EmptyString => [] | _ => [of_string t] end).
Definition val : node := A0 Const.
Definition eq_ (a b : node) : node := E2 ComparisonExpr a b.
Definition se (e : node) : node := SelectExpr e [].
Definition tab (t a : string) : node := Aliased (TableName [] [] (of_string t)) (of_string a) false.
Definition clause (xs froms : list node) (wh : node) : node := SelectClause (SelectExprs xs) (From Nil froms) wh Nil [] [] false.
Definition sel (id : nat) (xs froms : list node) (wh : node) : node := Select id Nil (clause xs froms wh) Nil Nil.
Definition sub (sid : nat) (q : node) : node := Subquery sid (ParenSelect q).
(** SELECT u.name, (SELECT title FROM tasks WHERE user_id = u.id)
    FROM users u JOIN (SELECT id FROM tasks) s ON s.id = u.id WHERE u.email = 'x' *)
Definition q1 : node := sel 1 [se (nm_ "" "title")] [tab "tasks" ""] (Where (eq_ (nm_ "" "user_id") (nm_ "u" "id"))).
Definition q2 : node := sel 2 [se (nm_ "" "id")] [tab "tasks" ""] Nil.
Definition ex_stmt : node :=
  sel 0 [se (nm_ "u" "name"); se (sub 1 q1)]
    [Join (tab "users" "u") (Aliased (sub 2 q2) (lit "s") false) (On (eq_ (nm_ "s" "id") (nm_ "u" "id")))]
    (Where (eq_ (nm_ "u" "email") val)).
(** SELECT id FROM users LIMIT 1 OFFSET (SELECT if(..) FROM tasks) *)
Definition offset_query : node := sel 1 [se (E3 IfExpr val val val)] [tab "tasks" ""] Nil.
Definition offset_stmt : node :=
  Select 0 Nil (clause [se (nm_ "" "id")] [tab "users" ""] Nil) Nil (Limit val (sub 1 offset_query)).

(** ** C24 *)
(** Any collector gets the same properly nested events, all reachable nodes are
    entered, and the nodes reported as unknown are exactly the reached ones of an
    unsupported kind. *)
Theorem pg_walk_events : forall n, n <> Nil -> exists t us, nested t /\
    (forall (S : Type) (enter leave : node -> S -> outcome S) s u, walk enter leave n s u = (do s <- run enter leave t s; Ok (s, u ++ us))) /\
    (forall m, reached n m <-> m <> Nil /\ In m (entered t)) /\
    (forall m, In m us <-> reached n m /\ unsupported_kind m).
Proof.
  intros n Hn. destruct (walk_events n) as (t & us & H1 & H2 & H3 & H4 & _). exists t, us. split; auto. split; auto. split; auto.
  intros m. symmetry. auto.
Qed.
Example pg_walk_events_ex : ex_stmt <> Nil. Proof. discriminate. Qed.
Print Assumptions pg_walk_events.
(** Without blind spots and unsupported kinds every node is entered exactly once. *)
Theorem pg_walk_exactly_once : forall n l, nodes n l -> (forall m, In m l -> ~ blind_spot m /\ ~ unsupported_kind m) ->
    exists t, nested t /\ Permutation (real (entered t)) l /\
    forall (S : Type) (enter leave : node -> S -> outcome S) s u, walk enter leave n s u = (do s <- run enter leave t s; Ok (s, u)).
Proof.
  intros n l HN HB. destruct (walk_events n) as (t & us & H1 & H2 & H3 & H4 & H5 & H6). exists t. split; auto. split; [now apply H6|].
  intros S enter leave s u. rewrite H2. assert (E : us = []); [|subst; now rewrite app_nil_r].
  destruct us as [|x us]; auto. exfalso. assert (Hn : n <> Nil) by (intros ->; destruct (H5 eq_refl); discriminate).
  destruct (proj1 (H4 Hn x) (or_introl eq_refl)) as [K1 K2]. destruct (H3 Hn x) as [_ K3]. destruct (K3 K1) as [K4 K5].
  assert (HI : In x l).
  { eapply Permutation_in; [apply H6; auto|]. apply filter_In. split; auto. destruct x; auto; congruence. }
  destruct (HB x HI). tauto.
Qed.
Fixpoint all_nodes (fuel : nat) (n : node) : list node :=
  match fuel, n with
  | 0, _ | _, Nil => []
  | S f, _ => n :: flat_map (all_nodes f) (children n)
  end.
Fixpoint deep (fuel : nat) (n : node) : bool :=
  match fuel, n with
  | _, Nil => true
  | 0, _ => false
  | S f, _ => forallb (deep f) (children n)
  end.
Lemma all_nodes_ok : forall fuel n, deep fuel n = true -> nodes n (all_nodes fuel n).
Proof.
  induction fuel as [|f IH]; intros n H.
  - destruct n; try discriminate. constructor.
  - assert (HA : forall l, forallb (deep f) l = true -> nodes_all l (flat_map (all_nodes f) l)).
    { induction l as [|x l IHl]; intros HL; [constructor|]. simpl in *. apply andb_prop in HL. destruct HL. constructor; auto. }
    destruct n; [constructor| | | | | | | | | | | | | | | | | | | | | | | | | | | | | | | | | | | | | | | | | | | | | |]; (apply nodes_node; [discriminate|apply HA; exact H]).
Qed.
Lemma within_nodes : forall n m, within n m -> m <> Nil -> forall fuel, deep fuel n = true -> In m (all_nodes fuel n).
Proof.
  intros n m H Hm. induction H as [n|n k m Hk _ IH]; intros fuel HD.
  - destruct fuel; destruct n; try discriminate; try congruence; now left.
  - destruct fuel as [|f]; [destruct n; try discriminate; destruct Hk|].
    assert (HX : In m (flat_map (all_nodes f) (children n))).
    { apply in_flat_map. exists k. split; auto. apply IH; auto. assert (HF : forallb (deep f) (children n) = true) by (destruct n; auto; destruct Hk).
      rewrite forallb_forall in HF. auto. }
    destruct n; try (now right). destruct Hk.
Qed.
Definition blindb (n : node) : bool :=
  match n with
  | Limit _ Nil => false | Limit _ _ => true
  | Func _ _ _ (_ :: _) | WindowDef _ (_ :: _) _ | DSeq (_ :: _) => true
  | _ => false
  end.
Lemma blindb_ok : forall n, blindb n = false -> ~ blind_spot n.
Proof. intros n H X. destruct n; simpl in *; try tauto; try (destruct ds; congruence); try (destruct order; congruence). destruct n2; try congruence. Qed.
Definition normal (n : node) : bool := (negb (blindb n) && known n)%bool.
Lemma normal_ok : forall n, normal n = true -> ~ blind_spot n /\ ~ unsupported_kind n.
Proof.
  intros n H. apply andb_prop in H. destruct H as [H1 H2]. split; [apply blindb_ok; now apply negb_true_iff|].
  intros X. apply known_unsupported in X. congruence.
Qed.
Example pg_walk_exactly_once_ex : nodes ex_stmt (all_nodes 20 ex_stmt) /\
  (forall m, In m (all_nodes 20 ex_stmt) -> ~ blind_spot m /\ ~ unsupported_kind m).
Proof.
  split; [now apply all_nodes_ok|]. assert (H : forallb normal (all_nodes 20 ex_stmt) = true) by reflexivity.
  rewrite forallb_forall in H. intros m Hm. now apply normal_ok, H.
Qed.
Print Assumptions pg_walk_exactly_once.
(** A statement with a reachable node of an unsupported kind is rejected by both. *)
Theorem pg_unsupported_kinds_rejected : forall norm target ord root m, reached root m -> unsupported_kind m ->
    (forall scopes, collect_scopes norm target root <> Ok (inl scopes)) /\
    (forall names, collect_table_names norm ord root <> Ok (inl names)).
Proof.
  intros norm target ord root m Hr Hu. split; intros x H.
  - unfold collect_scopes in H. destruct root; try discriminate. set (root := Select id root1 root2 root3 root4) in *.
    destruct (walk_events root) as (t & us & _ & W & _ & HU & _ & _). specialize (HU ltac:(discriminate)). rewrite W in H.
    destruct (run _ _ t _) as [c| |]; cbn [obind fst snd] in H; try discriminate.
    destruct us as [|y us]; [|discriminate]. destruct (proj2 (HU m)). auto.
  - unfold collect_table_names in H. destruct root; try discriminate. set (root := Select id root1 root2 root3 root4) in *.
    destruct (walk_events root) as (t & us & _ & W & _ & HU & _ & _). specialize (HU ltac:(discriminate)). rewrite W in H.
    destruct (run _ _ t _) as [c| |]; cbn [obind fst snd] in H; try discriminate.
    destruct us as [|y us]; [|discriminate]. destruct (proj2 (HU m)). auto.
Qed.
Example pg_unsupported_kinds_rejected_ex : reached offset_query (E3 IfExpr val val val) /\ unsupported_kind (E3 IfExpr val val val).
Proof.
  split; [|exact I]. eapply reached_in; [simpl; tauto|do 3 right; left; reflexivity|discriminate|]. eapply reached_in; [simpl; tauto|left; reflexivity|discriminate|].
  eapply reached_in; [simpl; tauto|left; reflexivity|discriminate|]. eapply reached_in; [simpl; tauto|left; reflexivity|discriminate|]. constructor.
Qed.
Print Assumptions pg_unsupported_kinds_rejected.
(** False without "reachable": in OFFSET nothing is looked at, so the statement is
    accepted, the subquery's table is not listed and the subquery has no scope. *)
Theorem pg_walk_refuted : within offset_stmt (E3 IfExpr val val val) /\ unsupported_kind (E3 IfExpr val val val) /\
    within offset_stmt (tab "tasks" "") /\
    collect_table_names low (fun l => l) offset_stmt = Ok (inl [users]) /\
    collect_scopes low public offset_stmt = Ok (inl [Scope (lit "<root>")
      [fld (rf_ "" "id"); fld (mk_fcol [] [] FSubquery)] [] [mk_table [] users false] []]).
Proof.
  assert (HW : forall m, within offset_query m -> within offset_stmt m).
  { intros m H. eapply within_child with (k := Limit val (sub 1 offset_query)); [simpl; tauto|]. eapply within_child with (k := sub 1 offset_query); [simpl; tauto|].
    eapply within_child; [left; reflexivity|]. eapply within_child; [left; reflexivity|exact H]. }
  assert (HC : forall k m, In k [SelectExprs [se (E3 IfExpr val val val)]; From Nil [tab "tasks" ""]] -> within k m -> within offset_query m).
  { intros k m Hk Hm. eapply within_child; [right; right; right; left; reflexivity|]. eapply within_child; [|exact Hm]. simpl in *. tauto. }
  split; [apply HW; eapply HC; [left; reflexivity|]; eapply within_child; [left; reflexivity|]; eapply within_child; [left; reflexivity|constructor]|].
  split; [exact I|]. split; [apply HW; eapply HC; [right; left; reflexivity|]; eapply within_child; [right; left; reflexivity|constructor]|].
  split; vm_compute; reflexivity.
Qed.
Print Assumptions pg_walk_refuted.

(** ** C25 *)
(** Collecting scopes crashes on every statement that is not a plain SELECT; on a
    plain one only because of a half window frame or a parenthesised table. *)
Theorem pg_scopes_crash : forall norm target root, distinct root -> (exists id w b o l, root = Select id w b o l) ->
    (~ is_query root -> collect_scopes norm target root = Panic) /\
    (is_query root -> ~ crashes root -> exists r, collect_scopes norm target root = Ok r).
Proof.
  intros norm target root HD HR. split; [now apply scopes_not_query|]. intros HQ HC.
  pose proof (scopes_crash norm target root HD) as H. destruct (collect_scopes norm target root) as [r| |]; [eauto|destruct H|].
  destruct H as [_ [H|H]]; tauto.
Qed.
Fixpoint addrs (fuel : nat) (n : node) : list address :=
  match fuel with 0 => [] | S f => own_address n ++ flat_map (addrs f) (children n) end.
Lemma addresses_fun : forall n a, addresses n a -> forall fuel, deep fuel n = true -> a = addrs fuel n.
Proof.
  apply (node_ind' (fun n => forall a, addresses n a -> forall fuel, deep fuel n = true -> a = addrs fuel n)).
  intros n IH a HA fuel HD. rewrite Forall_forall in IH. inversion HA as [n' l HL]; subst n' a.
  destruct fuel as [|f]; [destruct n; try discriminate; inversion HL; reflexivity|]. simpl. f_equal.
  assert (HF : forallb (deep f) (children n) = true) by (destruct n; auto). clear HD HA. revert l HL HF.
  induction (children n) as [|x xs IHx]; intros l HL HF; inversion HL; subst; auto. simpl in *. apply andb_prop in HF. destruct HF.
  f_equal; [apply IH; auto|apply IHx; auto].
Qed.
Lemma distinct_check : forall fuel n, deep fuel n = true -> NoDup (addrs fuel n) -> distinct n.
Proof. intros fuel n HD HN a HA. now rewrite (addresses_fun n a HA fuel HD). Qed.
Ltac nodup := repeat (constructor; [simpl; intuition discriminate|]); constructor.
Definition crashingb (n : node) : bool :=
  match n with
  | Func _ _ (WindowDef _ _ Nil) _ | Func _ _ (WindowDef _ _ (WindowFrame (FrameBound _) (FrameBound _))) _ => false
  | Func _ _ (WindowDef _ _ _) _ | ParenTable _ => true
  | _ => false
  end.
Lemma crashingb_ok : forall n, crashing n -> crashingb n = true.
Proof.
  intros n [H|(t & ->)]; auto. destruct n; simpl in *; try tauto. destruct n3; auto; try tauto. destruct n3_2; auto; try tauto. destruct n3_2_1; auto. destruct n3_2_2; auto.
Qed.
Lemma crashes_check : forall fuel n, deep fuel n = true -> existsb crashingb (all_nodes fuel n) = false -> ~ crashes n.
Proof.
  intros fuel n HD HE (m & Hw & Hc). assert (Hm : m <> Nil) by (intros ->; destruct Hc as [[]|(t & X)]; discriminate).
  assert (HI := within_nodes n m Hw Hm fuel HD). apply crashingb_ok in Hc.
  assert (HX : existsb crashingb (all_nodes fuel n) = true) by (apply existsb_exists; eauto). congruence.
Qed.
(** SELECT id FROM users UNION SELECT id FROM tasks *)
Definition union_stmt : node := Select 0 Nil (Union (sel 1 [se (nm_ "" "id")] [tab "users" ""] Nil) (sel 2 [se (nm_ "" "id")] [tab "tasks" ""] Nil)) Nil Nil.
(** (SELECT id FROM users) *)
Definition paren_stmt : node := Select 0 Nil (ParenSelect (sel 1 [se (nm_ "" "id")] [tab "users" ""] Nil)) Nil Nil.
(** SELECT sum(id) OVER (ROWS UNBOUNDED PRECEDING) FROM users *)
Definition frame_stmt : node := sel 0 [se (Func (Exprs [nm_ "" "id"]) Nil (WindowDef (Exprs []) [] (WindowFrame (FrameBound Nil) Nil)) [])] [tab "users" ""] Nil.
(** SELECT id FROM (users JOIN tasks ON true) *)
Definition paren_table_stmt : node := sel 0 [se (nm_ "" "id")] [ParenTable (Join (tab "users" "") (tab "tasks" "") (On val))] Nil.
Example pg_scopes_crash_ex : (distinct union_stmt /\ ~ is_query union_stmt) /\ (distinct ex_stmt /\ is_query ex_stmt /\ ~ crashes ex_stmt).
Proof.
  split; [split|split; [|split]].
  - apply (distinct_check 20); [reflexivity|]. vm_compute. nodup.
  - intros (? & ? & ? & ? & ? & ? & ? & ? & ? & ? & ? & X). discriminate.
  - apply (distinct_check 20); [reflexivity|]. vm_compute. nodup.
  - unfold is_query, ex_stmt, sel, clause. eauto 15.
  - apply (crashes_check 20); reflexivity.
Qed.
Print Assumptions pg_scopes_crash.
Theorem pg_scopes_crash_refuted : forall norm target,
    collect_scopes norm target union_stmt = Panic /\ collect_scopes norm target paren_stmt = Panic /\
    collect_scopes norm target frame_stmt = Panic /\ collect_scopes norm target paren_table_stmt = Panic.
Proof.
  intros. split; [|split; [|split; reflexivity]].
  - apply pg_scopes_crash; [apply (distinct_check 20); [reflexivity|]; vm_compute; nodup|unfold union_stmt; eauto 10|].
    intros (? & ? & ? & ? & ? & ? & ? & ? & ? & ? & ? & X). discriminate.
  - apply pg_scopes_crash; [apply (distinct_check 20); [reflexivity|]; vm_compute; nodup|unfold paren_stmt; eauto 10|].
    intros (? & ? & ? & ? & ? & ? & ? & ? & ? & ? & ? & X). discriminate.
Qed.
Print Assumptions pg_scopes_crash_refuted.

(** ** Computing what occurs in an expression, for the examples *)
Fixpoint parts (fuel : nat) (e : node) : list node :=
  match fuel with 0 => [] | S f => e :: match leaf e with None => flat_map (parts f) (operands e) | Some _ => [] end end.
Fixpoint pdeep (fuel : nat) (e : node) : bool :=
  match fuel with 0 => false | S f => match leaf e with None => forallb (pdeep f) (operands e) | Some _ => true end end.
Fixpoint mlist (fuel : nat) (e : node) : list mention :=
  match fuel with 0 => [] | S f => match leaf e with Some l => l | None => flat_map (mlist f) (operands e) end end.
Lemma parts_ok : forall e m, part e m -> forall fuel, pdeep fuel e = true -> In m (parts fuel e).
Proof.
  intros e m H. induction H as [e|e k m HL Hk HP IH]; intros fuel HD; destruct fuel as [|f]; try discriminate; [now left|].
  simpl in *. rewrite HL in *. rewrite forallb_forall in HD. right. apply in_flat_map. exists k. auto.
Qed.
Lemma mlist_ok : forall fuel e, pdeep fuel e = true -> occurs e (mlist fuel e).
Proof.
  induction fuel as [|f IH]; intros e HD; [discriminate|]. simpl in *. destruct (leaf e) eqn:HL; [now constructor|].
  apply occ_inner; auto. rewrite forallb_forall in HD. induction (operands e) as [|x xs IHx]; simpl; constructor; [apply IH, HD; now left|].
  apply IHx. intros y Hy. apply HD. now right.
Qed.
Ltac parts_of H := match type of H with part ?e ?m => apply parts_ok with (fuel := 10) in H; [|reflexivity]; cbv in H end.

(** ** C26 *)
Definition tables_of (s : scope) : list table := match s with Scope _ _ _ tables _ => tables end.
(** With a single FROM item, joins nested in any way, the scope has exactly the
    tables and derived tables of that item, left to right. *)
Theorem pg_from_exact : forall norm target id w xs a f wh hv d g win o l ss es ds,
    let root := Select id w (SelectClause xs (From a [f]) wh hv d g win) o l in
    supported norm target root -> distinct root -> from_item norm target f ss es ds ->
    exists nm sc, (forall i j, nm i = nm j -> i = j) /\ collect_scopes norm target root = Ok (inl [sc]) /\
      tables_of sc = map (as_table norm nm) ss.
Proof.
  intros norm target id w xs a f wh hv d g win o l ss es ds root HS HD HF.
  destruct (root_tree _ _ _ HS HD) as (nm & sc & H1 & _ & H2 & H3). exists nm, sc. split; auto. split; auto.
  unfold root in H3. inversion H3; subst. simpl.
  match goal with X : PgSpec.from_items _ _ [f] _ _ _ |- _ => inversion X; subst end.
  match goal with X : PgSpec.from_items _ _ [] _ _ _ |- _ => inversion X; subst end.
  match goal with X : PgSpec.from_item _ _ f _ _ _ |- _ => destruct (from_item_fun _ _ _ _ _ _ HF _ _ _ X) as (-> & _) end. reflexivity.
Qed.
Lemma fine_ok : forall e, pdeep 10 e = true -> (forall m, In m (parts 10 e) -> ~ offends public m /\ ~ half_frame m /\ known m = true /\ ~ hidden_subquery m /\ shaped m) -> fine public e.
Proof. intros e HD H m Hm. apply H. now apply parts_ok. Qed.
Ltac part_fine := split; [simpl; unfold foreign; simpl; try tauto; try lia|split; [simpl; tauto|split; [reflexivity|split; [simpl; tauto|simpl; auto]]]].
Ltac fine_tac := apply fine_ok; [reflexivity|]; intros m Hm; simpl in Hm; repeat (destruct Hm as [<-|Hm]; [part_fine|]); destruct Hm.
Ltac no_subquery := match goal with H : occurs ?e ?ms, X : In (MSub _ _) ?ms |- _ =>
  rewrite (occurs_fun _ _ H _ (mlist_ok 10 e eq_refl)) in X; simpl in X; exfalso; intuition discriminate end.
Lemma in_from : forall t a, from_item low public (tab t a) [STable (of_string t) (of_string a)] [] [].
Proof. intros t a. constructor. now left. Qed.
Lemma supported_simple : forall id xs t a wh, (forall x, In x xs -> exists e as_, x = SelectExpr e as_) -> (wh = Nil \/ exists e, wh = Where e) ->
    (forall i, In i (clauses xs [] wh Nil [] Nil Nil) -> fine public (snd i)) ->
    (forall i ms id q, In i (clauses xs [] wh Nil [] Nil Nil) -> occurs (snd i) ms -> In (MSub id q) ms -> supported low public q) ->
    supported low public (sel id xs [tab t a] wh).
Proof.
  intros id xs t a wh H1 H2 H3 H4. unfold sel, clause. eapply supported_select with (es := []) (ds := []).
  - change (@nil clause_item) with (@nil clause_item ++ []). change (@nil (nat * node)) with (@nil (nat * node) ++ []). constructor; [apply in_from|constructor].
  - now left.
  - exact H1.
  - exact H2.
  - now left.
  - now left.
  - now left.
  - exact H3.
  - exact H4.
  - intros i q [].
Qed.
Ltac select_exprs_tac := intros x Hx; simpl in Hx; repeat (destruct Hx as [<-|Hx]; [unfold se; eauto|]); destruct Hx.
Ltac items_tac tac := simpl in *; match goal with H : _ \/ _ |- _ => repeat (destruct H as [<-|H]; [simpl in *; tac|]); destruct H end.
Lemma q1_supported : supported low public q1.
Proof.
  apply supported_simple; [select_exprs_tac|eauto| |].
  - intros i Hi. items_tac fine_tac.
  - intros i ms id q Hi HO HM. (simpl in Hi; repeat (destruct Hi as [<-|Hi]; [simpl in *; no_subquery|]); destruct Hi).
Qed.
Lemma q2_supported : supported low public q2.
Proof.
  apply supported_simple; [select_exprs_tac|auto| |].
  - intros i Hi. items_tac fine_tac.
  - intros i ms id q Hi HO HM. (simpl in Hi; repeat (destruct Hi as [<-|Hi]; [simpl in *; no_subquery|]); destruct Hi).
Qed.
Definition ex_from : node := Join (tab "users" "u") (Aliased (sub 2 q2) (lit "s") false) (On (eq_ (nm_ "s" "id") (nm_ "u" "id"))).
Lemma ex_from_item : from_item low public ex_from [STable users (lit "u"); SDerived 2 (lit "s") false] [(FCondition, [], eq_ (nm_ "s" "id") (nm_ "u" "id"))] [(2, q2)].
Proof.
  change [STable users (lit "u"); SDerived 2 (lit "s") false] with ([STable users (lit "u")] ++ [SDerived 2 (lit "s") false]).
  change [(FCondition, @nil N, eq_ (nm_ "s" "id") (nm_ "u" "id"))] with (@nil clause_item ++ [] ++ [(FCondition, [], eq_ (nm_ "s" "id") (nm_ "u" "id"))]).
  change [(2, q2)] with (@nil (nat * node) ++ [(2, q2)]). constructor; [apply in_from|apply from_derived|constructor].
Qed.
Lemma ex_supported : supported low public ex_stmt.
Proof.
  unfold ex_stmt, sel, clause. fold ex_from.
  eapply supported_select with (sss := [[STable users (lit "u"); SDerived 2 (lit "s") false]]) (es := [(FCondition, [], eq_ (nm_ "s" "id") (nm_ "u" "id"))] ++ []) (ds := [(2, q2)] ++ []).
  - constructor; [apply ex_from_item|constructor].
  - now left.
  - select_exprs_tac.
  - right. eauto.
  - now left.
  - now left.
  - now left.
  - intros i Hi. items_tac fine_tac.
  - intros i ms id q Hi HO HM. simpl in Hi. destruct Hi as [<-|[<-|Hi]]; [simpl in *; no_subquery| |(simpl in Hi; repeat (destruct Hi as [<-|Hi]; [simpl in *; no_subquery|]); destruct Hi)].
    simpl in HO. rewrite (occurs_fun _ _ HO _ (mlist_ok 10 (sub 1 q1) eq_refl)) in HM. destruct HM as [HM|[]]. inversion HM; subst. exact q1_supported.
  - intros id q [E|[]]. inversion E; subst. exact q2_supported.
Qed.
Lemma ex_distinct : distinct ex_stmt.
Proof. apply (distinct_check 20); [reflexivity|]. vm_compute. nodup. Qed.
Example pg_from_exact_ex : supported low public ex_stmt /\ distinct ex_stmt /\
  exists ss es ds, from_item low public ex_from ss es ds /\ ss = [STable users (lit "u"); SDerived 2 (lit "s") false].
Proof. split; [apply ex_supported|]. split; [apply ex_distinct|]. do 3 eexists. split; [apply ex_from_item|reflexivity]. Qed.
Print Assumptions pg_from_exact.
(** In general only the last FROM item survives. *)
Theorem pg_from_last_only : forall norm target id w xs a froms wh hv d g win o l sss es ds,
    let root := Select id w (SelectClause xs (From a froms) wh hv d g win) o l in
    supported norm target root -> distinct root -> PgSpec.from_items norm target froms sss es ds ->
    exists nm sc, (forall i j, nm i = nm j -> i = j) /\ collect_scopes norm target root = Ok (inl [sc]) /\
      tables_of sc = map (as_table norm nm) (last sss []).
Proof.
  intros norm target id w xs a froms wh hv d g win o l sss es ds root HS HD HF.
  destruct (root_tree _ _ _ HS HD) as (nm & sc & H1 & _ & H2 & H3). exists nm, sc. split; auto. split; auto.
  unfold root in H3. inversion H3; subst. simpl.
  match goal with X : PgSpec.from_items _ _ froms _ _ _ |- _ => destruct (from_items_fun _ _ _ _ _ _ HF _ _ _ X) as (-> & _) end. reflexivity.
Qed.
Print Assumptions pg_from_last_only.
(** SELECT users.id FROM users, tasks: valid, but users is not known to the scope and
    suggesting fails. *)
Definition comma_stmt : node := sel 0 [se (nm_ "users" "id")] [tab "users" ""; tab "tasks" ""] Nil.
Definition no_indexes (names : list gostring) : outcome (list index_target) := Ok [].
Definition suggest (parsed : outcome (list node)) : outcome (list index_target) :=
  pg_suggest low ascii_fold (fun l => l) id_ord id_ord isort ex_columns no_indexes parsed.
Theorem pg_from_refuted : exists sc, collect_scopes low public comma_stmt = Ok (inl [sc]) /\
    collect_table_names low (fun l => l) comma_stmt = Ok (inl [users; tasks]) /\
    tables_of sc = [mk_table [] tasks false] /\ suggest (Ok [comma_stmt]) = Err (lit ": no table found: users").
Proof. eexists. split; [vm_compute; reflexivity|]. split; [vm_compute; reflexivity|]. split; vm_compute; reflexivity. Qed.
Print Assumptions pg_from_refuted.

(** ** C27 *)
(** Without unsupported parts the references are exactly what occurs outside
    subqueries, in source order, and nothing is reported. *)
Theorem pg_expression_exact : forall norm target e l top ty es, occurs e l ->
    (forall m, part e m -> ~ offends target m /\ ~ half_frame m) ->
    exists es', collect_expr norm target top ty e es = Ok (map (as_fcol norm ty) l, es') /\ es_last es' = es_last es.
Proof.
  intros norm target e l top ty es HO HP. rewrite (collect_ok norm target e l HO HP). eexists. split; [reflexivity|]. apply regs_last.
Qed.
Definition ex_expr : node := eq_ (nm_ "s" "id") (Coalesce [nm_ "u" "id"; sub 1 q1; val]).
Example pg_expression_exact_ex : occurs ex_expr [MCol (lit "s") (lit "id"); MCol (lit "u") (lit "id"); MSub 1 q1] /\
  (forall m, part ex_expr m -> ~ offends public m /\ ~ half_frame m).
Proof.
  split; [exact (mlist_ok 10 ex_expr eq_refl)|]. intros m Hm. apply parts_ok with (fuel := 10) in Hm; [|reflexivity]. simpl in Hm.
  repeat (destruct Hm as [<-|Hm]; [split; [simpl; unfold foreign; simpl; try tauto; try lia|simpl; tauto]|]). destruct Hm.
Qed.
Print Assumptions pg_expression_exact.
Lemma offence_or_not : forall target e, (exists m, part e m /\ offends target m) \/ (forall m, part e m -> ~ offends target m).
Proof.
  intros target. apply operand_ind. intros e IH. destruct (offends_dec (fun s => s) target e) as [H|H]; [left; exists e; split; [constructor|auto]|].
  destruct (leaf e) as [l|] eqn:HL; [right; intros m Hm; now rewrite (part_leaf _ _ _ HL Hm)|].
  assert (D : (exists k m, In k (operands e) /\ part k m /\ offends target m) \/ (forall k m, In k (operands e) -> part k m -> ~ offends target m)).
  { induction (operands e) as [|x xs IHx]; [right; intros k m []|]. destruct (IH x) as [(m & K1 & K2)|K]; [now left|left; exists x, m; split; [now left|auto]|].
    destruct IHx as [(k & m & K1 & K2)|K']; [intros; apply IH; now right|left; exists k, m; split; [now right|auto]|].
    right. intros k m [<-|Hk]; eauto. }
  destruct D as [(k & m & K1 & K2 & K3)|D]; [left; exists m; split; auto; eapply part_in; eauto|].
  right. intros m Hm. inversion Hm; subst; auto. eapply D; eauto.
Qed.
(** An error is reported iff a part is unsupported, a crash happens iff a part has a
    half window frame. *)
Theorem pg_expression_reported : forall norm target e top ty es, es_last es = None ->
    (collect_expr norm target top ty e es = Panic <-> exists m, part e m /\ half_frame m) /\
    (forall cols es', collect_expr norm target top ty e es = Ok (cols, es') ->
       (es_last es' <> None <-> exists m, part e m /\ offends target m)) /\
    (forall m, collect_expr norm target top ty e es <> Err m).
Proof.
  intros norm target e top ty es HN. pose proof (collect_shape norm target e top ty es) as H.
  destruct (collect_expr norm target top ty e es) as [[cols es']| |]; simpl in H; [|destruct H|].
  - destruct H as [H1 H2]. split; [split; [discriminate|intros (m & K1 & K2); elim (H1 m K1 K2)]|]. split; [|discriminate].
    intros cols0 es0 E. inversion E; subst cols0 es0. split.
    + intros K. destruct (offence_or_not target e) as [X|X]; auto. elim K. apply H2. auto.
    + intros (m & K1 & K2) K. destruct (proj1 H2 K) as [_ K3]. elim (K3 m K1 K2).
  - split; [tauto|]. split; discriminate.
Qed.
Print Assumptions pg_expression_reported.
(** A column of another schema next to a window with one bound. *)
Example pg_expression_reported_ex : es_last (mk_es None [] []) = None /\
  (exists m, part (E2 AndExpr (nm_ "" "id") (Func (Exprs [nm_ "" "id"]) Nil (WindowDef (Exprs []) [] (WindowFrame (FrameBound Nil) Nil)) [])) m /\ half_frame m) /\
  (exists m, part (eq_ (Name false [lit "id"; lit "users"; lit "other"]) val) m /\ offends public m).
Proof.
  split; [reflexivity|]. split.
  - eexists. split; [eapply part_in; [reflexivity|right; left; reflexivity|constructor]|exact I].
  - eexists. split; [eapply part_in; [reflexivity|left; reflexivity|constructor]|]. right. split; [reflexivity|]. vm_compute. discriminate.
Qed.

(** ** C64 *)
(** The scope of a supported statement is exactly what the statement says: the
    fields of all clauses, a scope for each subquery and derived table, under
    names that are different from each other. *)
Theorem pg_scope_exact : forall norm target root, supported norm target root -> distinct root ->
    exists nm sc, (forall i j, nm i = nm j -> i = j) /\ (forall i, nm i <> lit "<root>") /\
      collect_scopes norm target root = Ok (inl [sc]) /\ tree_of norm target nm (lit "<root>") root sc.
Proof. exact root_tree. Qed.
Example pg_scope_exact_ex : supported low public ex_stmt /\ distinct ex_stmt /\
  exists name1 name2, collect_scopes low public ex_stmt = Ok (inl [Scope (lit "<root>")
    [fld (rf_ "u" "name"); fld (mk_fcol [] [] FSubquery);
     mk_field [] [cd_ "s" "id"; cd_ "u" "id"]; fld (cd_ "u" "email")]
    [Scope name1 [fld (rf_ "" "title"); mk_field [] [cd_ "" "user_id"; cd_ "u" "id"]] [] [mk_table [] tasks false] []]
    [mk_table (lit "u") users false; mk_table (lit "s") name2 false]
    [Scope name2 [fld (rf_ "" "id")] [] [mk_table [] tasks false] []]]).
Proof. split; [apply ex_supported|]. split; [apply ex_distinct|]. do 2 eexists. vm_compute. reflexivity. Qed.
Print Assumptions pg_scope_exact.

(** ** C65 *)
(** What is accepted has nothing unsupported at any place the walker reaches and no
    WITH query with a select list. *)
Theorem pg_unsupported_refused : forall norm target root, distinct root -> forall s, collect_scopes norm target root = Ok (inl s) ->
    is_query root /\ forall m, reached root m -> ~ unsupported_kind m /\ ~ unsupported_select norm target m /\ ~ with_query m.
Proof. intros norm target root HD s H. eapply scopes_refuse; eauto. Qed.
(** WITH x AS (SELECT id FROM tasks) SELECT id FROM users *)
Definition with_stmt : node := Select 0 (With [CTE (lit "x") (sel 1 [se (nm_ "" "id")] [tab "tasks" ""] Nil)]) (clause [se (nm_ "" "id")] [tab "users" ""] Nil) Nil Nil.
Example pg_unsupported_refused_ex : distinct ex_stmt /\ (exists s, collect_scopes low public ex_stmt = Ok (inl s)) /\
  distinct with_stmt /\ reached with_stmt with_stmt /\ with_query with_stmt.
Proof.
  split; [apply ex_distinct|]. split; [eexists; vm_compute; reflexivity|].
  split; [apply (distinct_check 20); [reflexivity|]; vm_compute; nodup|]. split; [constructor|]. simpl. split; [discriminate|].
  eexists. exists (sel 1 [se (nm_ "" "id")] [tab "tasks" ""] Nil). split; [left; reflexivity|]. split; [discriminate|]. split; [|exact I].
  eapply reached_in; [simpl; tauto|left; reflexivity|discriminate|]. eapply reached_in; [simpl; tauto|left; reflexivity|discriminate|]. constructor.
Qed.
Print Assumptions pg_unsupported_refused.
(** WITH x AS (VALUES (1)) SELECT id FROM users is accepted and then crashes. *)
Definition values_stmt : node := Select 0 (With [CTE (lit "x") (Select 1 Nil (Values [Exprs [val]]) Nil Nil)]) (clause [se (nm_ "" "id")] [tab "users" ""] Nil) Nil Nil.
Theorem pg_with_refused_refuted : distinct values_stmt /\ (exists s, collect_scopes low public values_stmt = Ok (inl s)) /\ suggest (Ok [values_stmt]) = Panic.
Proof. split; [apply (distinct_check 20); [reflexivity|]; vm_compute; nodup|]. split; [eexists; vm_compute; reflexivity|vm_compute; reflexivity]. Qed.
Print Assumptions pg_with_refused_refuted.

(** ** C66 *)
Theorem pg_table_names_exact : forall norm ord root names, (forall l, Permutation (ord l) l) ->
    collect_table_names norm ord root = Ok (inl names) ->
    NoDup names /\ (forall t, In t names <-> table_read norm (fun _ => False) root t).
Proof. intros norm ord root names HO H. pose proof (table_names norm ord root HO) as K. rewrite H in K. destruct K as (K1 & K2 & _). auto. Qed.
Theorem pg_table_names_refused : forall norm ord root, (forall l, Permutation (ord l) l) -> (exists id w b o l, root = Select id w b o l) ->
    ((exists names, collect_table_names norm ord root = Ok (inl names)) /\ (forall m, reached root m -> ~ unsupported_kind m /\ ~ foreign_table m)) \/
    ((exists errs, collect_table_names norm ord root = Ok (inr errs) /\ errs <> []) /\ (exists m, reached root m /\ (unsupported_kind m \/ foreign_table m))).
Proof.
  intros norm ord root HO HR. pose proof (table_names norm ord root HO) as K. destruct (collect_table_names norm ord root) as [[names|errs]| |]; try (destruct K; fail).
  - left. destruct K as (_ & _ & _ & K). eauto.
  - right. destruct K as (K1 & K2). split; [eauto|]. now apply K2.
Qed.
(** Nothing is listed that SQL would not read. *)
Theorem pg_table_names_sound : forall norm ord root names t, (forall l, Permutation (ord l) l) -> with_shaped root ->
    collect_table_names norm ord root = Ok (inl names) -> In t names -> really_read norm (fun _ => False) root t.
Proof.
  intros norm ord root names t HO HW H HI. apply (table_read_really norm root (fun _ => False)); auto.
  now apply (pg_table_names_exact norm ord root names HO H).
Qed.
Lemma shaped_check : forall fuel n, deep fuel n = true ->
    forallb (fun m => match m with
      | Select _ w b o l => match w with Nil => true | With cs => forallb (fun x => match x with CTE _ _ => true | _ => false end) cs | _ => false end &&
          forallb (fun x => match x with With _ => false | _ => true end) [b; o; l]
      | _ => true end)%bool (all_nodes fuel n) = true -> with_shaped n.
Proof.
  intros fuel n HD HF id w b o l Hw. rewrite forallb_forall in HF. specialize (HF _ (within_nodes n _ Hw ltac:(discriminate) fuel HD)). cbv beta iota in HF.
  apply andb_prop in HF. destruct HF as [F1 F2]. split.
  - destruct w; try discriminate; [now left|]. right. eexists. split; [reflexivity|]. rewrite forallb_forall in F1. intros x Hx. specialize (F1 x Hx). destruct x; try discriminate. eauto.
  - intros cs Hc. rewrite forallb_forall in F2. specialize (F2 _ Hc). discriminate.
Qed.
Example pg_table_names_ex : collect_table_names low (fun l => l) ex_stmt = Ok (inl [tasks; users]) /\ with_shaped ex_stmt /\
  collect_table_names low (fun l => l) with_stmt = Ok (inl [tasks; users]) /\ with_shaped with_stmt /\
  (exists errs, collect_table_names low (fun l => l) (sel 0 [se (nm_ "" "id")] [Aliased (TableName [] (lit "other") users) [] false] Nil) = Ok (inr errs)).
Proof.
  split; [vm_compute; reflexivity|]. split; [apply (shaped_check 20); reflexivity|]. split; [vm_compute; reflexivity|].
  split; [apply (shaped_check 20); reflexivity|]. eexists. vm_compute. reflexivity.
Qed.
Print Assumptions pg_table_names_exact.
Print Assumptions pg_table_names_refused.
Print Assumptions pg_table_names_sound.
(** WITH users AS (SELECT id FROM users) SELECT id FROM users reads the table users,
    which is not listed. *)
Definition cte_stmt : node := Select 0 (With [CTE users (sel 1 [se (nm_ "" "id")] [tab "users" ""] Nil)]) (clause [se (nm_ "" "id")] [tab "users" ""] Nil) Nil Nil.
Theorem pg_table_names_refuted : really_read low (fun _ => False) cte_stmt users /\ collect_table_names low (fun l => l) cte_stmt = Ok (inl []).
Proof.
  split; [|vm_compute; reflexivity]. apply really_with with (before := []) (name := users) (q := sel 1 [se (nm_ "" "id")] [tab "users" ""] Nil) (after := []); [reflexivity|].
  apply really_below with (k := clause [se (nm_ "" "id")] [tab "users" ""] Nil); [simpl; auto|discriminate|].
  apply really_below with (k := From Nil [tab "users" ""]); [simpl; auto|discriminate|].
  apply really_below with (k := tab "users" ""); [simpl; auto|discriminate|].
  change users with (low users). apply really_here. simpl. intros X. repeat (destruct X as [X|X]); try destruct X as (? & ? & [] & _); auto.
Qed.
Print Assumptions pg_table_names_refuted.

(** ** C67 *)
(** A supported statement with derived tables in the last FROM item only never
    makes suggesting crash. *)
Theorem pg_suggest_never_crashes : forall norm fold so ord ordf srt columns indexes parsed,
    (forall names, columns names <> Panic) -> (forall names, indexes names <> Panic) -> (forall l, Permutation (so l) l) ->
    parsed <> Panic -> parsed <> Ok [] ->
    (forall root, parsed = Ok [root] -> supported norm public root /\ distinct root /\ late_derived root) ->
    pg_suggest norm fold so ord ordf srt columns indexes parsed <> Panic.
Proof.
  intros norm fold so ord ordf srt columns indexes parsed HC HI HO HP HN HR.
  destruct parsed as [stmts|m|]; [|discriminate|congruence].
  destruct stmts as [|root [|? ?]]; [congruence| |discriminate].
  destruct (HR root eq_refl) as (HS & HD & HL). intros H. unfold pg_suggest in H. cbn [obind] in H.
  pose proof (table_names norm so root HO) as K. destruct (collect_table_names norm so root) as [[tables|errs]| |]; try (destruct K; fail); cbn [obind MysqlCollect.first_error] in H.
  2: { destruct errs; [destruct K; congruence|discriminate]. }
  destruct (collect_table_schemas columns tables) as [schemas|m|] eqn:E2; cbn [obind] in H; try discriminate.
  2: { unfold collect_table_schemas in E2. destruct tables as [|t0 tables']; [discriminate|].
       destruct (columns (t0 :: tables')) as [crows|m|] eqn:E3; cbn [obind] in E2; try discriminate; [|now apply HC in E3].
       rewrite check_spec in E2. destruct (find _ _); discriminate. }
  destruct (root_tree _ _ _ HS HD) as (nm & sc & _ & _ & E3 & HT). change (lit "public") with public in H. rewrite E3 in H. cbn [obind MysqlCollect.first_error] in H.
  destruct (build ord ordf srt schemas [sc]) as [its|m|] eqn:E4; cbn [obind] in H; try discriminate.
  - unfold remove_existing in H. destruct (pg_get_indexes indexes _) as [infos|m|] eqn:E5; cbn [obind] in H; try discriminate.
    unfold pg_get_indexes in E5. destruct (uniq seqb _) as [|n0 names]; [discriminate|]. now apply HI in E5.
  - apply (build_never_crashes ord ordf srt schemas [sc]); auto. constructor; [|constructor]. apply (tree_listed norm public nm root _ sc HT HL).
Qed.
Lemma late_check : forall fuel n, deep fuel n = true ->
    forallb (fun m => match m with Select _ _ (SelectClause _ (From _ l) _ _ _ _ _) _ _ => Nat.leb (length l) 1 | _ => true end) (all_nodes fuel n) = true -> late_derived n.
Proof.
  intros fuel n HD HF id w xs a before x after wh hv d g win o l Hw Ha. rewrite forallb_forall in HF.
  specialize (HF _ (within_nodes n _ Hw ltac:(discriminate) fuel HD)). cbv beta iota in HF. apply Nat.leb_le in HF. rewrite app_length in HF. simpl in HF. destruct after; [congruence|simpl in HF; lia].
Qed.
(** A text that does not parse, or holds several statements, is reported. *)
Theorem pg_suggest_several_reported : forall norm fold so ord ordf srt columns indexes,
    (forall m, pg_suggest norm fold so ord ordf srt columns indexes (Err m) = Err m) /\
    (forall stmts, 2 <= length stmts -> exists m, pg_suggest norm fold so ord ordf srt columns indexes (Ok stmts) = Err m).
Proof.
  intros. split; [reflexivity|]. intros [|a [|b l]] H; simpl in H; try lia. eexists. reflexivity.
Qed.
Example pg_suggest_several_reported_ex : 2 <= length [ex_stmt; ex_stmt].
Proof. simpl; lia. Qed.
Print Assumptions pg_suggest_several_reported.
Example pg_suggest_never_crashes_ex : supported low public ex_stmt /\ distinct ex_stmt /\ late_derived ex_stmt /\ (forall names, ex_columns names <> Panic) /\ (forall names, no_indexes names <> Panic).
Proof. split; [apply ex_supported|]. split; [apply ex_distinct|]. split; [apply (late_check 20); reflexivity|]. split; intros; discriminate. Qed.
Print Assumptions pg_suggest_never_crashes.
(** SELECT id FROM (SELECT id FROM tasks) s, users *)
Definition derived_first : node := sel 0 [se (nm_ "" "id")] [Aliased (sub 1 (sel 1 [se (nm_ "" "id")] [tab "tasks" ""] Nil)) (lit "s") false; tab "users" ""] Nil.
(** SELECT id FROM users WHERE id = (SELECT title FROM tasks UNION SELECT id FROM tasks) *)
Definition union_sub : node := sel 0 [se (nm_ "" "id")] [tab "users" ""]
  (Where (eq_ (nm_ "" "id") (sub 1 (Select 3 Nil (Union (sel 1 [se (nm_ "" "title")] [tab "tasks" ""] Nil) q2) Nil Nil)))).
(** SELECT DISTINCT ON ((SELECT id FROM tasks)) id FROM users *)
Definition distinct_on : node :=
  Select 0 Nil (SelectClause (SelectExprs [se (nm_ "" "id")]) (From Nil [tab "users" ""]) Nil Nil [sub 1 q2] [] false) Nil Nil.
(** An empty text and valid statements that crash. *)
Theorem pg_suggest_never_crashes_refuted :
    suggest (Ok []) = Panic /\ suggest (Ok [derived_first]) = Panic /\ suggest (Ok [union_sub]) = Panic /\ suggest (Ok [distinct_on]) = Panic /\
    suggest (Ok [union_stmt]) = Panic /\ suggest (Ok [paren_stmt]) = Panic /\ suggest (Ok [frame_stmt]) = Panic.
Proof. repeat match goal with |- _ /\ _ => split end; vm_compute; reflexivity. Qed.
Print Assumptions pg_suggest_never_crashes_refuted.

(** ** C68 *)
(** Every suggestion for a supported statement is on a table the statement reads;
    its columns exist, are mentioned by name in the statement and are no existing index. *)
Theorem pg_suggestions_justified : forall norm fold so ord ordf srt columns indexes root its,
    (forall l, Permutation (so l) l) -> is_order ord -> is_order ordf -> is_sort itt_less srt ->
    supported norm public root -> distinct root ->
    pg_suggest norm fold so ord ordf srt columns indexes (Ok [root]) = Ok its ->
    exists tables rows names infos, (forall t, In t tables <-> table_read norm (fun _ => False) root t) /\ columns tables = Ok rows /\ indexes names = Ok infos /\
      forall it, In it its ->
        table_read norm (fun _ => False) root (it_table it) /\ it_cols it <> [] /\ NoDup (it_cols it) /\
        (forall c, In c (it_cols it) -> (exists pk, In (it_table it, c, pk) rows) /\ exists m, within root m /\ names_column norm m c) /\
        (exists c, In c (it_cols it) /\ ~ In (it_table it, c, true) rows) /\
        In (it_table it) names /\ (forall ex, In ex infos -> it_table ex = it_table it -> ~ Forall2 (same_name fold) (it_cols it) (it_cols ex)).
Proof.
  intros norm fold so ord ordf srt columns indexes root its Hso Ho Hof Hs HS HD H. unfold pg_suggest in H. cbn [obind] in H.
  destruct (collect_table_names norm so root) as [[tables|errs]| |] eqn:ET; cbn [obind MysqlCollect.first_error] in H; try discriminate; [|destruct errs; discriminate].
  destruct (root_tree _ _ _ HS HD) as (nm & sc & _ & _ & ESc & HT). change (lit "public") with public in H. rewrite ESc in H. cbn [obind MysqlCollect.first_error] in H.
  assert (HC : exists rows, columns tables = Ok rows).
  { unfold collect_table_schemas in H. destruct tables; [discriminate|]. destruct (columns _); try discriminate. eauto. }
  destruct HC as [rows HC].
  assert (HSF : suggest_from fold ord ordf srt columns (pg_get_indexes indexes) tables [sc] = Ok its) by exact H.
  destruct (suggestions_useful_and_new _ _ _ _ _ _ _ _ _ _ Ho Hof Hs HC HSF) as (names & infos & HI & HIncl & HU).
  assert (HI' : indexes names = Ok infos) by (unfold pg_get_indexes in HI; destruct names; [discriminate|exact HI]).
  exists tables, rows, names, infos. split; [exact (proj2 (pg_table_names_exact norm so root tables Hso ET))|]. split; [exact HC|]. split; [exact HI'|]. intros it Hit.
  destruct (HU it Hit) as (U0 & U1 & U2 & U3 & U4 & U5 & U6).
  split; [now apply (pg_table_names_exact norm so root tables Hso ET)|]. split; [exact U2|]. split; [exact U3|].
  split; [|split; [exact U5|split; [exact U0|exact U6]]]. intros c Hc. split; [now apply U4|].
  unfold suggest_from in HSF. destruct (collect_table_schemas columns tables) as [schemas|m|]; cbn [obind] in HSF; try discriminate.
  destruct (build ord ordf srt schemas [sc]) as [its0|m|] eqn:EB; cbn [obind] in HSF; try discriminate.
  destruct (remove_existing _ _ _ (seq 0 (length its0))) as [res|m|] eqn:ER; cbn [obind] in HSF; try discriminate.
  inversion HSF; subst its; clear HSF. apply in_map_iff in Hit. destruct Hit as (p & Hp & Hit).
  assert (HI0 : In it its0).
  { unfold remove_existing in ER. rewrite (uniq_id Nat.eqb Nat.eqb_eq) in ER by apply seq_NoDup.
    destruct (pg_get_indexes indexes _) as [infos'|m|] eqn:EG; cbn [obind] in ER; try discriminate. inversion ER; subst res.
    unfold remove_matched in Hit. apply filter_In in Hit. destruct Hit as [Hit _]. apply in_seq in Hit. rewrite <- Hp. apply nth_In. lia. }
  destruct (build_In _ _ _ _ _ _ _ Ho Hs EB HI0) as (path & sc' & ts & x & Hsc & HB & Hx & ->). destruct Hsc as [<-|[]].
  eapply tree_mentions; [exact HT|]. eapply target_mentioned; [exact Ho|exact Hof|exact HB|exact Hx|exact Hc].
Qed.
Example pg_suggestions_justified_ex : supported low public ex_stmt /\ distinct ex_stmt /\
  suggest (Ok [ex_stmt]) = Ok [tgt "tasks" ["user_id"]; tgt "tasks" ["id"; "user_id"]; tgt "tasks" ["user_id"; "id"];
    tgt "tasks" ["id"; "user_id"; "title"]; tgt "tasks" ["user_id"; "id"; "title"];
    tgt "users" ["email"]; tgt "users" ["email"; "id"]; tgt "users" ["id"; "email"];
    tgt "users" ["email"; "id"; "name"]; tgt "users" ["id"; "email"; "name"]].
Proof. split; [apply ex_supported|]. split; [apply ex_distinct|]. vm_compute. reflexivity. Qed.
Print Assumptions pg_suggestions_justified.

(** ** C69 *)
(** Tables of the scope are among the listed tables up to normalisation. *)
Theorem pg_scope_tables_listed : forall norm so root names nm sc, (forall l, Permutation (so l) l) -> supported norm public root ->
    tree_of norm public nm (lit "<root>") root sc -> collect_table_names norm so root = Ok (inl names) ->
    forall t, In t (tables_of sc) -> (exists i, t_name t = nm i) \/ In (norm (t_name t)) names.
Proof.
  intros norm so root names nm sc Hso HS HT HN t Ht. inversion HS; subst. inversion HT; subst. simpl in Ht. apply in_map_iff in Ht. destruct Ht as (s & <- & Hs).
  destruct s as [name as_|i as_ lat]; [right; simpl|left; exists i; reflexivity].
  apply (pg_table_names_exact norm so _ names Hso HN).
  match goal with X : PgSpec.from_items norm public froms ?sss _ _, Y : In (STable name as_) (last ?sss []) |- _ =>
    eapply (select_reads norm public); [exact X| |exact Y]; clear - Y; destruct sss as [|x l]; [destruct Y|];
    destruct (exists_last (l := x :: l) ltac:(discriminate)) as (l' & y & E); rewrite E in *; rewrite last_last; apply in_or_app; right; now left end.
Qed.
Example pg_scope_tables_listed_ex : supported low public ex_stmt /\ (exists nm sc, tree_of low public nm (lit "<root>") ex_stmt sc) /\
  collect_table_names low (fun l => l) ex_stmt = Ok (inl [tasks; users]).
Proof. split; [apply ex_supported|]. split; [|vm_compute; reflexivity]. destruct (root_tree _ _ _ ex_supported ex_distinct) as (nm & sc & _ & _ & _ & H). eauto. Qed.
Print Assumptions pg_scope_tables_listed.
(** Without normalisation false: SELECT id FROM "Users" asks the database about the
    table users, while the scope refers to Users, so suggesting fails although the
    answer contains both. *)
Definition mixed_stmt : node := sel 0 [se (nm_ "" "id")] [tab "Users" ""] Nil.
Definition mixed_columns (names : list gostring) : outcome (list (list N * list N * bool)) :=
  Ok [(users, lit "id", true); (lit "Users", lit "id", true)].
Theorem pg_scope_tables_listed_refuted : collect_table_names low (fun l => l) mixed_stmt = Ok (inl [users]) /\
    (exists sc, collect_scopes low public mixed_stmt = Ok (inl [sc]) /\ tables_of sc = [mk_table [] (lit "Users") false]) /\
    exists m, pg_suggest low ascii_fold (fun l => l) id_ord id_ord isort mixed_columns no_indexes (Ok [mixed_stmt]) = Err m.
Proof. split; [vm_compute; reflexivity|]. split; [eexists; split; vm_compute; reflexivity|]. eexists. vm_compute. reflexivity. Qed.
Print Assumptions pg_scope_tables_listed_refuted.
