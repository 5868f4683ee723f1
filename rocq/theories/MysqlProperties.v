(** C22, C23, C58-C62: MySQL statements. *)
From Coq Require Import String List NArith Bool Lia Arith Permutation.
From Verif Require Import Base IndexText IndexBuild IndexBuildSpec IndexBuildProofs TableFields TableFieldsSpec TableFieldsProofs
  BuildSpec BuildProofs BuildProperties Existing ExistingSpec ExistingProofs ExistingProperties
  MysqlAst MysqlCollect MysqlSpec MysqlProofs.
Import ListNotations.
Local Open Scope string_scope.
Local Open Scope list_scope.

(** ** Concrete data *)
Definition ascii_low (c : N) : N := if is_upper c then (c + 32)%N else c.
Definition col (t n : string) : node := Column (of_string t) (of_string n).
Definition eq_ (a b : node) : node := E2 BinaryOperationExpr a b.
Definition val : node := E0 ValueExpr.
Definition sel (fields : list node) (from wh : node) : node := Select [] fields from wh [] Nil [] [] Nil false.
Definition sf (e : node) : node := SelectField e [] [].
Definition star : node := SelectField Nil [] [].
Definition tab (t a : string) : node := TableSource (TableName [] (of_string t)) (of_string a).
(** name LIKE ? AND (u.ID BETWEEN ? AND x OR EXISTS (SELECT ..)) *)
Definition ex_expr : node :=
  eq_ (E2 PatternLikeExpr (col "" "name") val)
      (E1 ParenthesesExpr (eq_ (Between (col "u" "ID") val (col "" "x")) (E1 ExistsSubqueryExpr (Subquery (sel [star] (tab "tasks" "") Nil))))).

(** ** C22 *)
Theorem mysql_expression_columns : forall low ty e cols, lossless e ->
    collect_expr low ty e None = (cols, None) ->
    exists l, occurs e l /\ Permutation cols (map (as_fcol low ty) l) /\ (no_match e -> cols = map (as_fcol low ty) l).
Proof.
  intros low ty e cols HL H.
  assert (HO : forall m, part e m -> ~ offends m) by (apply (accepted_iff low e ty HL); now rewrite H).
  destruct (collect_exact low e ty HL HO) as (l & H1 & H2 & H3). rewrite H in *. eauto.
Qed.
Example mysql_expression_columns_ex : lossless ex_expr /\ no_match ex_expr /\
  collect_expr ascii_low FCondition ex_expr None
  = ([cd_ "" "name"; cd_ "u" "id"; cd_ "" "x"; mk_fcol [] [] FSubquery], None).
Proof.
  split; [apply (lossless_check 20); vm_compute; reflexivity|].
  split; [apply (no_match_check 20); vm_compute; reflexivity|]. vm_compute. reflexivity.
Qed.
Print Assumptions mysql_expression_columns.

(** An expression is refused iff it contains something that cannot be in a query
    or has an unknown type; subqueries are not looked into. *)
Theorem mysql_expression_accepted : forall low ty e, lossless e ->
    (snd (collect_expr low ty e None) = None <-> forall m, part e m -> ~ offends m).
Proof. intros. now apply accepted_iff. Qed.
Example mysql_expression_accepted_ex :
  lossless (eq_ val (E0 OtherExpr)) /\ snd (collect_expr ascii_low FCondition (eq_ val (E0 OtherExpr)) None) <> None /\
  snd (collect_expr ascii_low FCondition ex_expr None) = None.
Proof. split; [apply (lossless_check 20); vm_compute; reflexivity|]. vm_compute. split; [discriminate|reflexivity]. Qed.
Print Assumptions mysql_expression_accepted.

(** Whatever the expression: nothing is invented and the kind is as requested. *)
Theorem mysql_expression_sound : forall low ty e l c, occurs e l ->
    In c (fst (collect_expr low ty e None)) -> exists m, In m l /\ c = as_fcol low ty m.
Proof. intros low ty e l c. apply collect_sound. Qed.
Example mysql_expression_sound_ex : (exists l, occurs ex_expr l) /\ In (cd_ "u" "id") (fst (collect_expr ascii_low FCondition ex_expr None)).
Proof. split; [apply occurs_total|]. vm_compute. tauto. Qed.
Print Assumptions mysql_expression_sound.

(** Without [lossless] columns get lost: COLLATE, := and ORDER BY in GROUP_CONCAT. *)
Theorem mysql_expression_columns_refuted : forall low ty,
  (exists x, occurs (E1 SetCollationExpr x) [Some ([], lit "name")] /\ collect_expr low ty (E1 SetCollationExpr x) None = ([], None)) /\
  (exists x, occurs (UserVar x) [Some ([], lit "name")] /\ collect_expr low ty (UserVar x) None = ([], None)) /\
  (exists o, occurs (Aggregate [val] o) [Some ([], lit "name")] /\ collect_expr low ty (Aggregate [val] o) None = ([], None)).
Proof.
  assert (HV : occurs val []) by (apply occ_inner; [exact I|constructor]).
  intros low ty. split; [|split].
  - exists (col "" "name"). split; [|reflexivity]. apply occ_inner; [exact I|]. apply (occ_cons (col "" "name") [Some ([], lit "name")] [] []); constructor.
  - exists (col "" "name"). split; [|reflexivity]. apply occ_inner; [exact I|]. apply (occ_cons (col "" "name") [Some ([], lit "name")] [] []); constructor.
  - exists [col "" "name"]. split; [|reflexivity]. apply occ_inner; [exact I|]. simpl.
    apply (occ_cons val [] _ [_]); auto. apply (occ_cons (col "" "name") [Some ([], lit "name")] [] []); constructor.
Qed.
Print Assumptions mysql_expression_columns_refuted.
(** MATCH .. AGAINST reports its columns after those of AGAINST: order matters. *)
Theorem mysql_match_order_refuted : exists e l cols, lossless e /\ occurs e l /\
  collect_expr ascii_low FCondition e None = (cols, None) /\ cols <> map (as_fcol ascii_low FCondition) l.
Proof.
  exists (Match [([], lit "a")] (col "" "b")), [Some ([], lit "a"); Some ([], lit "b")].
  eexists. split; [apply (lossless_check 5); vm_compute; reflexivity|].
  split; [apply (occ_match [([], lit "a")] _ [Some ([], lit "b")]); constructor|].
  split; [vm_compute; reflexivity|]. vm_compute. discriminate.
Qed.
Print Assumptions mysql_match_order_refuted.

(** ** C58 *)
(** The result is a single scope without inner scopes. Its tables are those of
    the FROM clause, its fields those of the statement's clauses, in order. *)
Theorem mysql_scope_exact : forall low root scs, lossless_select root -> collect_scopes low root = inl scs ->
    exists ts ons fields, from_clause (select_from root) ts ons /\
      Forall2 (item_field low) (items ons root) fields /\
      scs = [Scope root_scope_name (filter (fun f => negb (Nat.eqb (length (f_cols f)) 0)) fields) [] (map (as_table low) ts) []].
Proof.
  intros low root scs HL H. apply collect_scopes_1 in H. destruct H as (HS & _ & ts & ons & (HW & HF & HK) & ->).
  exists ts, ons, (map (conv low) (items ons root)). split; auto. split.
  - specialize (HL ts ons HF). clear HW. induction (items ons root) as [|i l IH]; simpl; constructor.
    + assert (Hi : iok low i) by (inversion HK; auto). specialize (HL i (or_introl eq_refl)).
      destruct i as [w a|ty a e]; simpl; auto. split; auto. simpl in HL. unfold iok in Hi. simpl in Hi.
      apply collect_exact; auto. exact (proj1 (accepted_iff low e FReference HL) Hi).
    + apply IH; [intros i' Hi'; apply HL; now right|inversion HK; auto].
  - unfold the_scope. f_equal. f_equal. apply filter_ext. intros f. unfold nonempty. destruct (f_cols f); reflexivity.
Qed.
(** SELECT u.name AS n, T.* FROM users u JOIN tasks T ON u.id = T.user_id WHERE u.Email = ? GROUP BY title ORDER BY u.name LIMIT 1 *)
Definition ex_stmt : node :=
  Select [] [SelectField (col "u" "name") [] (lit "n"); SelectField Nil (lit "T") []]
    (Join (Join (tab "users" "u") (tab "Tasks" "T") (eq_ (col "u" "id") (col "T" "user_id")) []) Nil Nil [])
    (eq_ (col "u" "Email") val) [col "" "title"] Nil [] [col "u" "name"] (Limit val Nil) false.
Definition ex_stmt_scope : scope :=
  Scope (lit "<root>") [mk_field (lit "n") [rf_ "u" "name"]; fld (mk_fcol (lit "t") [] FStar);
      mk_field [] [cd_ "u" "id"; cd_ "t" "user_id"]; fld (cd_ "u" "email"); fld (rf_ "" "title"); fld (rf_ "u" "name")]
    [] [mk_table (lit "u") users false; mk_table (lit "t") tasks false] [].
Lemma lossless_select_check : forall s ts ons, from_clause (select_from s) ts ons ->
    forallb (fun i => check (fun n => negb (lossyb n)) 20 (item_expr i)) (items ons s) = true -> lossless_select s.
Proof.
  intros s ts ons HF H ts' ons' HF' i Hi. destruct (from_clause_fun _ _ _ HF _ _ HF') as [-> ->].
  rewrite forallb_forall in H. apply (lossless_check 20). auto.
Qed.
Example mysql_scope_exact_ex : lossless_select ex_stmt /\ collect_scopes ascii_low ex_stmt = inl [ex_stmt_scope].
Proof.
  split; [|vm_compute; reflexivity]. eapply lossless_select_check; [apply from_join; [apply from_join; constructor|constructor]|].
  vm_compute. reflexivity.
Qed.
Print Assumptions mysql_scope_exact.

(** The columns handed to the builder are exactly those used outside subqueries. *)
Theorem mysql_scope_uses : forall low root scs, lossless_select root -> collect_scopes low root = inl scs ->
    exists fields tables, scs = [Scope root_scope_name fields [] tables []] /\
    forall t n ty, ty <> FSubquery ->
      ((exists f, In f fields /\ In (mk_fcol t n ty) (f_cols f)) <->
       exists t' n', uses root t' n' ty /\ t = map low t' /\ n = map low n').
Proof.
  intros low root scs HL H. destruct (mysql_scope_exact low root scs HL H) as (ts & ons & fields & HF & HI & ->).
  eexists _, _. split; [reflexivity|]. intros t n ty Hty. split.
  - intros (f & Hf & Hc). apply filter_In in Hf. destruct Hf as [Hf _].
    assert (HX : exists i, In i (items ons root) /\ item_field low i f).
    { clear -HI Hf. induction HI; [destruct Hf|]. destruct Hf as [<-|Hf]; [exists x; simpl; auto|].
      destruct (IHHI Hf) as (i & H1 & H2). exists i. simpl. auto. }
    destruct HX as (i & Hi & Hif). destruct i as [w a|ty' a e]; simpl in Hif.
    + subst f. simpl in Hc. destruct Hc as [Hc|[]]. inversion Hc; subst. exists w, []. split; auto.
      exists ts, ons. split; auto. exists (StarItem w a). auto.
    + destruct Hif as (_ & l & Ho & Hp & _). apply (Permutation_in _ Hp) in Hc. apply in_map_iff in Hc.
      destruct Hc as ([[t' n']|] & Hc & Hm); simpl in Hc; inversion Hc; subst; [|congruence].
      exists t', n'. split; auto. exists ts, ons. split; auto. exists (ExprItem ty a e). split; auto. split; auto. eauto.
  - intros (t' & n' & (ts' & ons' & HF' & i & Hi & Hu) & -> & ->).
    destruct (from_clause_fun _ _ _ HF _ _ HF') as [<- <-].
    assert (HX : exists f, In f fields /\ item_field low i f).
    { clear -HI Hi. induction HI; [destruct Hi|]. destruct Hi as [<-|Hi]; [exists y; simpl; auto|].
      destruct (IHHI Hi) as (f & H1 & H2). exists f. simpl. auto. }
    destruct HX as (f & Hf & Hif). exists f.
    assert (HC : In (mk_fcol (map low t') (map low n') ty) (f_cols f)).
    { destruct i as [w a|ty' a e]; simpl in Hif.
      - destruct Hu as (-> & -> & ->). subst f. now left.
      - destruct Hu as (-> & l & Ho & Hm). destruct Hif as (_ & l' & Ho' & Hp & _).
        rewrite (occurs_fun _ _ Ho _ Ho') in Hm. apply Permutation_sym in Hp. eapply Permutation_in; [exact Hp|].
        apply in_map_iff. exists (Some (t', n')). auto. }
    split; auto. apply filter_In. split; auto. destruct (f_cols f); [destruct HC|reflexivity].
Qed.
Example mysql_scope_uses_ex : lossless_select ex_stmt /\ uses ex_stmt (lit "u") (lit "Email") FCondition.
Proof.
  split; [apply mysql_scope_exact_ex|]. eexists _, _. split; [apply from_join; [apply from_join; constructor|constructor]|].
  exists (ExprItem FCondition [] (eq_ (col "u" "Email") val)). split; [vm_compute; tauto|]. split; auto.
  exists ([Some (lit "u", lit "Email")] ++ [] ++ []). split; [|simpl; auto]. apply occ_inner; [exact I|].
  apply occ_cons; [constructor|]. apply occ_cons; [apply occ_inner; [exact I|constructor]|constructor].
Qed.
Print Assumptions mysql_scope_uses.
(** Soundness holds for every statement. *)
Theorem mysql_scope_sound : forall low root scs, collect_scopes low root = inl scs ->
    exists fields tables, scs = [Scope root_scope_name fields [] tables []] /\
    forall f t n ty, In f fields -> In (mk_fcol t n ty) (f_cols f) ->
      (ty = FSubquery /\ t = [] /\ n = []) \/ exists t' n', uses root t' n' ty /\ t = map low t' /\ n = map low n'.
Proof.
  intros low root scs H. apply collect_scopes_1 in H. destruct H as (HS & _ & ts & ons & (HW & HF & HK) & ->).
  eexists _, _. split; [reflexivity|]. intros f t n ty Hf Hc. apply filter_In in Hf. destruct Hf as [Hf _].
  apply in_map_iff in Hf. destruct Hf as (i & <- & Hi). destruct i as [w a|ty' a e]; simpl in Hc.
  - destruct Hc as [Hc|[]]. inversion Hc; subst. right. exists w, []. split; auto. exists ts, ons. split; auto. exists (StarItem w a). auto.
  - destruct (occurs_total e) as [l Ho]. destruct (collect_sound low e ty' _ l Ho Hc) as ([[t' n']|] & Hm & E); simpl in E; inversion E; subst; auto.
    right. exists t', n'. split; auto. exists ts, ons. split; auto. exists (ExprItem ty' a e). split; auto. split; eauto.
Qed.
Example mysql_scope_sound_ex : exists scs, collect_scopes ascii_low ex_stmt = inl scs.
Proof. eexists. apply mysql_scope_exact_ex. Qed.
Print Assumptions mysql_scope_sound.
(** Columns compared by JOIN .. USING are not collected: nothing is suggested for
    tasks although the join compares tasks.user_id. *)
Definition using_stmt (u : list gostring) : node :=
  sel [sf (col "a" "id")] (Join (tab "accounts" "a") (tab "tasks" "t") Nil u) Nil.
Theorem mysql_using_ignored : forall low u, collect_scopes low (using_stmt u) = collect_scopes low (using_stmt []).
Proof. reflexivity. Qed.
Example mysql_using_ignored_ex : exists scs, collect_scopes ascii_low (using_stmt [lit "user_id"]) = inl scs.
Proof. eexists. vm_compute. reflexivity. Qed.
Print Assumptions mysql_using_ignored.

(** ** C59 *)
Lemma items_eok : forall low s ts ons, lossless_select s -> from_clause (select_from s) ts ons ->
    (Forall (iok low) (items ons s) <-> ~ exists i m, In i (items ons s) /\ part (item_expr i) m /\ offends m).
Proof.
  intros low s ts ons HL HF. rewrite Forall_forall. split.
  - intros H (i & m & Hi & Hm & Ho). specialize (H i Hi). unfold iok in H.
    exact (proj1 (accepted_iff low (item_expr i) FReference (HL _ _ HF i Hi)) H m Hm Ho).
  - intros H i Hi. unfold iok. apply accepted_iff; [exact (HL _ _ HF i Hi)|]. intros m Hm Ho. apply H. eauto.
Qed.
(** A statement is refused if any SELECT in it is unsupported. *)
Theorem mysql_unsupported_rejected : forall low root m, inside root m -> is_select m -> lossless_select m -> unsupported m ->
    exists e errs, collect_scopes low root = inr (e :: errs).
Proof.
  intros low root m HI HS HL HU. destruct (collect_scopes low root) as [scs|errs] eqn:E.
  - exfalso. apply collect_scopes_1 in E. destruct E as (_ & E & _). apply walk_errors in E. destruct E as [_ E].
    destruct (E m HI HS) as (ts & ons & HW & HF & HK). destruct HU as [HU|[HU|(ts' & ons' & HF' & HU)]]; [tauto|apply HU; eauto|].
    destruct (from_clause_fun _ _ _ HF _ _ HF') as [<- <-]. apply (items_eok low m ts ons HL HF) in HK. tauto.
  - destruct errs as [|e errs]; [|eauto]. exfalso. destruct root; simpl in E; try discriminate.
    destruct (c_errors _); discriminate.
Qed.
(** SELECT * FROM users WHERE id IN (SELECT user_id FROM db.tasks) *)
Definition db_stmt : node :=
  sel [star] (tab "users" "") (PatternIn (col "" "id") [] (Subquery (sel [sf (col "" "user_id")] (TableSource (TableName (lit "db") tasks) []) Nil))).
Example mysql_unsupported_rejected_ex : exists m, inside db_stmt m /\ is_select m /\ lossless_select m /\ unsupported m.
Proof.
  exists (sel [sf (col "" "user_id")] (TableSource (TableName (lit "db") tasks) []) Nil). split; [|split; [exact I|split]].
  - eapply inside_kid; [simpl; right; right; left; reflexivity|]. eapply inside_kid; [simpl; right; left; reflexivity|].
    eapply inside_kid; [simpl; left; reflexivity|]. constructor.
  - intros ts ons HF. inversion HF.
  - right. left. intros (ts & ons & HF). inversion HF.
Qed.
Print Assumptions mysql_unsupported_rejected.
(** ... and accepted if every SELECT in it is supported and there is no WITH. *)
Theorem mysql_supported_accepted : forall low root, is_select root ->
    (forall m, inside root m -> is_select m -> lossless_select m /\ ~ unsupported m /\ ~ has_with m /\ ~ has_values m) ->
    exists sc, collect_scopes low root = inl [sc].
Proof.
  intros low root HS H.
  destruct (walk_clean low root (mk_coll [] [] None)) as [HE _]; auto.
  - intros m Hm Hs. destruct (H m Hm Hs) as (HL & HU & HW & HV). split; auto. split; auto.
    assert (HF : exists ts ons, from_clause (select_from m) ts ons).
    { destruct (collect_tables low (select_from m) None) as [[ts fs] le] eqn:E.
      clear -HU. unfold unsupported in HU.
      assert (HD : forall n, (exists ts ons, from_clause n ts ons) \/ ~ exists ts ons, from_clause n ts ons).
      { clear. fix IH 1.
        assert (HJ : forall l r on u, ((exists ts ons, from_clause l ts ons) \/ ~ exists ts ons, from_clause l ts ons) ->
          ((exists ts ons, from_clause r ts ons) \/ ~ exists ts ons, from_clause r ts ons) ->
          ((exists ts ons, from_clause (Join l r on u) ts ons) \/ ~ exists ts ons, from_clause (Join l r on u) ts ons)).
        { intros l r on u [(t1 & o1 & H1)|H1] [(t2 & o2 & H2)|H2].
          - left. eexists _, _. eapply from_join; eauto.
          - right. intros (ts & ons & HX). inversion HX; subst. apply H2. eauto.
          - right. intros (ts & ons & HX). inversion HX; subst. apply H1. eauto.
          - right. intros (ts & ons & HX). inversion HX; subst. apply H1. eauto. }
        destruct n; try (right; intros (ts & ons & HX); inversion HX; fail).
        - left. eexists _, _. constructor.
        - destruct n; try (right; intros (ts & ons & HX); inversion HX; fail).
          + left. eexists _, _. constructor.
          + destruct schema; [left; eexists _, _; constructor|right; intros (ts & ons & HX); inversion HX].
          + destruct (HJ n1 n2 n3 using_ (IH n1) (IH n2)) as [(ts & ons & HX)|HX].
            * left. eexists _, _. apply from_paren. exact HX.
            * right. intros (ts & ons & HY). inversion HY; subst. apply HX. eauto.
        - exact (HJ n1 n2 n3 using_ (IH n1) (IH n2)). }
      destruct (HD (select_from m)) as [HX|HX]; auto. elim HU. auto. }
    destruct HF as (ts & ons & HF). exists ts, ons. split; [|split; auto].
    + intros Hw. apply HU. left. auto.
    + apply (items_eok low m ts ons HL HF). intros (i & x & Hx). apply HU. right. right. exists ts, ons. split; eauto.
  - assert (HC : exists scs, collect_scopes low root = inl scs).
    { destruct root; try (elim HS). unfold collect_scopes. rewrite HE. eauto. }
    destruct HC as [scs HC]. pose proof HC as HC'. apply collect_scopes_1 in HC'. destruct HC' as (_ & _ & ts & ons & _ & ->). eauto.
Qed.
Lemma inside_leaf : forall n m, kids n = [] -> inside n m -> m = n.
Proof. intros n m H HI. inversion HI; subst; auto. rewrite H in *. match goal with X : In _ [] |- _ => destruct X end. Qed.
Definition is_selectb (n : node) : bool := match n with Select _ _ _ _ _ _ _ _ _ _ => true | _ => false end.
Fixpoint selects (fuel : nat) (n : node) : list node :=
  match fuel with
  | 0 => []
  | S f => (if is_selectb n then [n] else []) ++ flat_map (selects f) (kids n)
  end.
Fixpoint deep (fuel : nat) (n : node) : bool := match fuel with 0 => false | S f => forallb (deep f) (kids n) end.
Lemma selects_In : forall n m, inside n m -> is_select m -> forall fuel, deep fuel n = true -> In m (selects fuel n).
Proof.
  intros n m H Hs. induction H as [n|n k m Hk _ IH]; intros [|f] HD; simpl in HD; try discriminate; simpl.
  - destruct n; try (elim Hs). simpl. auto.
  - apply in_or_app. right. apply in_flat_map. exists k. split; auto. apply IH; auto. rewrite forallb_forall in HD. auto.
Qed.
Example mysql_supported_accepted_ex : is_select ex_stmt /\
  forall m, inside ex_stmt m -> is_select m -> lossless_select m /\ ~ unsupported m /\ ~ has_with m /\ ~ has_values m.
Proof.
  split; [exact I|]. intros m Hm Hs. pose proof (selects_In _ _ Hm Hs 10 eq_refl) as HI.
  replace (selects 10 ex_stmt) with [ex_stmt] in HI by reflexivity. destruct HI as [<-|[]].
  split; [apply mysql_scope_exact_ex|]. split; [|split; simpl; tauto].
  assert (HF : exists ts ons, from_clause (select_from ex_stmt) ts ons /\
    forallb (fun i => check (fun n => match n with E0 ValueExpr | Nil | Column _ _ | E2 _ _ _ => true | _ => false end) 20 (item_expr i)) (items ons ex_stmt) = true).
  { eexists _, _. split; [apply from_join; [apply from_join; constructor|constructor]|]. vm_compute. reflexivity. }
  destruct HF as (ts & ons & HF & HC). intros [HU|[HU|(ts' & ons' & HF' & i & x & Hi & Hx & Ho)]]; [elim HU|apply HU; eauto|].
  destruct (from_clause_fun _ _ _ HF _ _ HF') as [<- <-]. rewrite forallb_forall in HC. specialize (HC i Hi).
  pose proof (check_part _ _ _ Hx _ HC) as HX. destruct x; simpl in Ho, HX; try tauto; try discriminate. destruct t; try discriminate HX; elim Ho.
Qed.
Print Assumptions mysql_supported_accepted.
(** WITH is refused as soon as some SELECT below it reads a table. *)
Theorem mysql_with_rejected : forall low root m k q, inside root m -> has_with m -> In k (kids m) -> inside k q ->
    is_select q -> select_from q <> Nil -> exists errs, collect_scopes low root = inr errs.
Proof.
  intros low root m k q Hm Hw Hk Hq Hs Hf. destruct (collect_scopes low root) as [scs|errs] eqn:E; [|eauto].
  exfalso. apply collect_scopes_1 in E. destruct E as (_ & E & _). apply walk_pending in E. destruct E as [_ E].
  apply Hf. apply (E m q); eauto. destruct m; simpl in *; tauto.
Qed.
(** WITH c AS (SELECT * FROM users) SELECT * FROM c *)
Definition with_stmt : node := Select [Cte (lit "c") (Subquery (sel [star] (tab "users" "") Nil))] [star] (tab "c" "") Nil [] Nil [] [] Nil false.
Example mysql_with_rejected_ex : has_with with_stmt /\ exists k q, In k (kids with_stmt) /\ inside k q /\ is_select q /\ select_from q <> Nil.
Proof.
  split; [exact I|]. eexists _, (sel [star] (tab "users" "") Nil). split; [left; reflexivity|]. split; [|split; [exact I|discriminate]].
  eapply inside_kid; [left; reflexivity|]. eapply inside_kid; [left; reflexivity|]. constructor.
Qed.
Print Assumptions mysql_with_rejected.
(** ... but not always: with a star and no FROM in the WITH query, and VALUES at the top pass unnoticed. *)
Theorem mysql_with_rejected_refuted :
  (exists root scs, has_with root /\ collect_scopes ascii_low root = inl scs) /\
  (exists root scs, has_values root /\ collect_scopes ascii_low root = inl scs).
Proof.
  split.
  - exists (Select [Cte (lit "c") (sel [star] Nil Nil)] [sf (col "" "id")] (tab "users" "") Nil [] Nil [] [] Nil false).
    eexists. split; [exact I|]. vm_compute. reflexivity.
  - exists (Select [] [] Nil Nil [] Nil [] [] Nil true). eexists. split; [exact I|]. vm_compute. reflexivity.
Qed.
Print Assumptions mysql_with_rejected_refuted.

(** ** C23 *)
Theorem mysql_table_names_exact : forall low ord root names, (forall l, Permutation (ord l) l) ->
    collect_table_names low ord root = inl names ->
    NoDup names /\ forall t, In t names <-> reads low (fun _ => False) root t.
Proof.
  intros low ord root names Ho H.
  destruct (twalk_spec low root (mk_tc [] [] []) (fun _ => False) (stack_nil low)) as (_ & (new & E1 & E2) & _).
  simpl in E1.
  assert (HN : names = ord (fold_left (fun s t => if str_in t s then s else s ++ [t]) new [])).
  { destruct root; simpl in H; try discriminate. rewrite <- E1. destruct (tc_errors _); inversion H; reflexivity. }
  subst names. destruct (set_fold new [] (NoDup_nil _)) as [H1 H2]. split.
  - eapply Permutation_NoDup; [apply Permutation_sym, Ho|exact H1].
  - intros t. rewrite <- E2. rewrite <- (H2 t) || idtac. split.
    + intros HI. apply (Permutation_in _ (Ho _)) in HI. apply H2 in HI. simpl in HI. tauto.
    + intros HI. apply (Permutation_in _ (Permutation_sym (Ho _))). apply H2. auto.
Qed.
Example mysql_table_names_exact_ex : (forall l : list gostring, Permutation (rev l) l) /\
  collect_table_names ascii_low (@rev _) ex_stmt = inl [tasks; users] /\
  collect_table_names ascii_low (@rev _) with_stmt = inl [users].
Proof. split; [intros l; apply Permutation_sym, Permutation_rev|]. vm_compute. auto. Qed.
Print Assumptions mysql_table_names_exact.
(** Refused iff some table source is odd; every error comes from one. *)
Theorem mysql_table_names_refused : forall low ord root, is_select root ->
    ((exists errs, collect_table_names low ord root = inr errs) <-> exists m, inside root m /\ bad_source m).
Proof.
  intros low ord root HS.
  destruct (twalk_spec low root (mk_tc [] [] []) (fun _ => False) (stack_nil low)) as (_ & _ & (errs & E1 & E2)). simpl in E1.
  assert (HR : (exists e, collect_table_names low ord root = inr e) <-> errs <> []).
  { destruct root; try (elim HS). unfold collect_table_names. rewrite E1. destruct errs as [|e errs].
    - split; [intros [e He]; discriminate|congruence].
    - split; [discriminate|intros _; eauto]. }
  rewrite HR. split.
  - intros HE. destruct errs as [|e errs]; [congruence|]. destruct (proj1 (E2 e) (or_introl eq_refl)) as (m & Hm & He).
    exists m. split; auto. apply (source_error_bad low). intros E. rewrite E in He. destruct He.
  - intros (m & Hm & Hb). apply (source_error_bad low) in Hb. destruct (source_error low m) as [|e l] eqn:E; [congruence|].
    intros ->. apply (proj2 (E2 e)). exists m. rewrite E. simpl. auto.
Qed.
Example mysql_table_names_refused_ex : is_select db_stmt /\ (exists m, inside db_stmt m /\ bad_source m) /\ ~ exists m, inside ex_stmt m /\ bad_source m.
Proof.
  split; [exact I|]. split.
  - exists (TableSource (TableName (lit "db") tasks) []). split; [|exact I].
    eapply inside_kid; [simpl; right; right; left; reflexivity|]. eapply inside_kid; [simpl; right; left; reflexivity|].
    eapply inside_kid; [simpl; left; reflexivity|]. eapply inside_kid; [simpl; right; left; reflexivity|]. constructor.
  - intros H. apply (mysql_table_names_refused ascii_low (fun l => l) ex_stmt I) in H. destruct H as [e H]. vm_compute in H. discriminate.
Qed.
Print Assumptions mysql_table_names_refused.
(** Every reported table is really read ... *)
Lemma reads_really : forall low n hidden t, reads low hidden n t -> forall hidden' : gostring -> Prop, (forall c, hidden' c -> hidden c) -> really_reads low hidden' n t.
Proof.
  intros low n hidden t H. induction H as [hidden name a Hn|hidden n k t Hk _ IH]; intros hidden' Hh.
  - apply rr_here. intros (c & H1 & H2). apply Hn. eauto.
  - assert (HD : In k (ctes_of n) \/ In k (skipn (length (ctes_of n)) (kids n))).
    { destruct n; simpl in *; auto. rewrite skipn_app, skipn_all, Nat.sub_diag. apply in_app_or in Hk. exact Hk. }
    destruct HD as [HI|HI].
    + apply in_split in HI. destruct HI as (b & a & E). eapply rr_cte; [exact E|]. apply IH. intros c [Hc|(q & Hc)]; auto.
      right. exists q. rewrite E. apply in_or_app. auto.
    + eapply rr_kid; eauto. apply IH. intros c [Hc|Hc]; auto.
Qed.
Theorem mysql_table_names_sound : forall low ord root names t, (forall l, Permutation (ord l) l) ->
    collect_table_names low ord root = inl names -> In t names -> really_reads low (fun _ => False) root t.
Proof.
  intros low ord root names t Ho H HI. apply (mysql_table_names_exact low ord root names Ho H) in HI.
  eapply reads_really; eauto.
Qed.
Print Assumptions mysql_table_names_sound.
(** ... but a table read by the WITH query of the same name is missing. *)
Definition shadow_stmt : node :=
  Select [Cte users (Subquery (sel [star] (tab "users" "") Nil))] [star] (tab "users" "") Nil [] Nil [] [] Nil false.
Theorem mysql_table_names_refuted : exists root, really_reads ascii_low (fun _ => False) root users /\
    forall ord, (forall l, Permutation (ord l) l) -> collect_table_names ascii_low ord root = inl [].
Proof.
  exists shadow_stmt. split.
  - eapply (rr_cte _ _ shadow_stmt [] _ []); [reflexivity|]. eapply rr_kid; [left; reflexivity|]. eapply rr_kid; [left; reflexivity|].
    eapply rr_kid; [right; left; reflexivity|].
    apply (rr_here ascii_low _ users []). simpl. unfold names_of. simpl. intros (c & H & _).
    repeat destruct H as [H|H]; try destruct H as [q H]; try tauto.
  - intros ord Ho. vm_compute. f_equal. apply Permutation_nil, Permutation_sym, Ho.
Qed.
Print Assumptions mysql_table_names_refuted.

(** ** C60: subqueries are checked for support but their columns are not analysed *)
(** SELECT name FROM users WHERE id IN (SELECT user_id FROM tasks WHERE title = ?) *)
Definition sub_stmt (q : node) : node :=
  sel [sf (col "" "name")] (tab "users" "") (PatternIn (col "" "id") [] (Subquery q)).
Definition sub_query : node := sel [sf (col "" "user_id")] (tab "tasks" "") (eq_ (col "" "title") val).
(** Same text outside subqueries. *)
Definition alike (i i' : item) : Prop :=
  match i, i' with
  | ExprItem ty a e, ExprItem ty' a' e' => ty = ty' /\ a = a' /\ exists l, occurs e l /\ occurs e' l
  | _, _ => i = i'
  end.
Theorem mysql_subqueries_ignored : forall low root root' scs scs' ts ons ons', lossless_select root -> lossless_select root' ->
    from_clause (select_from root) ts ons -> from_clause (select_from root') ts ons' ->
    Forall2 alike (items ons root) (items ons' root') ->
    (forall i, In i (items ons root) -> no_match (item_expr i)) -> (forall i, In i (items ons' root') -> no_match (item_expr i)) ->
    collect_scopes low root = inl scs -> collect_scopes low root' = inl scs' -> scs = scs'.
Proof.
  intros low root root' scs scs' ts ons ons' HL HL' HF HF' HA HM HM' H H'.
  destruct (mysql_scope_exact low root scs HL H) as (ts1 & ons1 & fs & G & I1 & ->).
  destruct (mysql_scope_exact low root' scs' HL' H') as (ts2 & ons2 & fs' & G' & I2 & ->).
  destruct (from_clause_fun _ _ _ HF _ _ G) as [<- <-]. destruct (from_clause_fun _ _ _ HF' _ _ G') as [<- <-].
  do 3 f_equal. clear -HA HM HM' I1 I2. revert fs fs' I1 I2 HM HM'.
  induction HA as [|i i' l l' Hi _ IH]; intros fs fs' I1 I2 HM HM'; inversion I1; subst; inversion I2; subst; auto.
  simpl. assert (EQ : y = y0); [|subst y0; f_equal; apply IH; auto; intros j Hj; [apply HM|apply HM']; now right].
  match goal with A : item_field low i y, B : item_field low i' y0 |- _ => rename A into F1; rename B into F2 end.
  specialize (HM i (or_introl eq_refl)). specialize (HM' i' (or_introl eq_refl)).
  destruct i as [w a|ty a e], i' as [w' a'|ty' a' e']; simpl in *; try discriminate.
  - inversion Hi; subst. congruence.
  - destruct Hi as (-> & -> & k & K1 & K2).
    destruct F1 as (A1 & k1 & O1 & _ & C1). destruct F2 as (A2 & k2 & O2 & _ & C2).
    rewrite (occurs_fun _ _ O1 _ K1) in C1. rewrite (occurs_fun _ _ O2 _ K2) in C2.
    destruct y, y0; simpl in *. rewrite C1, C2 by auto. congruence.
Qed.
Example mysql_subqueries_ignored_ex : exists scs, collect_scopes ascii_low (sub_stmt sub_query) = inl scs.
Proof. eexists. vm_compute. reflexivity. Qed.
Print Assumptions mysql_subqueries_ignored.

(** ** C61: from the statement to the suggestions *)
Lemma mysql_suggest_inv : forall low fold so ord ordf srt columns rows parsed its,
    mysql_suggest low fold so ord ordf srt columns rows parsed = Ok its ->
    exists root rest tables scopes, parsed = Ok (root :: rest) /\ collect_table_names low so root = inl tables /\
      collect_scopes low root = inl scopes /\
      suggest_from fold ord ordf srt columns (mysql_get_indexes rows) tables scopes = Ok its.
Proof.
  intros low fold so ord ordf srt columns rows parsed its H. unfold mysql_suggest in H.
  destruct parsed as [[|root rest]|m|]; simpl in H; try discriminate.
  destruct (collect_table_names low so root) as [tables|[|m errs]] eqn:E1; simpl in H; try discriminate.
  destruct (collect_table_schemas columns tables) as [schemas|m|] eqn:E2; simpl in H; try discriminate.
  destruct (collect_scopes low root) as [scopes|[|m errs]] eqn:E3; simpl in H; try discriminate.
  exists root, rest, tables, scopes. unfold suggest_from. rewrite E2. simpl. auto.
Qed.
(** Where a suggested column comes from, for a scope without inner scopes. *)
Lemma flat_target_source : forall ord ordf db path name fields tables ts x, is_order ord -> is_order ordf ->
    build_from_scope ord ordf db path (Scope name fields [] tables []) = Ok ts -> In x ts ->
    forall c, In c (map fst (itt_fields x)) ->
    exists f fc t, In f fields /\ In fc (f_cols f) /\ ordinary fc /\ fc_name fc = c /\
      In t tables /\ t_name t = itt_table x /\ (fc_table fc = [] \/ as_or_name t = fc_table fc).
Proof.
  intros ord ordf db path name fields tables ts x Ho Hof H Hx c Hc.
  destruct (target_origin ord ordf Ho _ _ _ _ x H Hx) as (rf & l & sch & p & HT & HM & _ & HN & HI & _).
  apply in_map_iff in Hc. destruct Hc as ([c' ty] & <- & Hc). simpl.
  apply (index_composition_sound _ _ _ _ _ Hof HN) in HI. destruct HI as (_ & _ & HI & _). apply HI in Hc.
  destruct (table_fields_sound _ _ _ _ _ Ho HT) as (o & us & HMe & HR). inversion HMe; subst. clear HMe.
  match goal with HX : subs_mean _ _ _ _ _ _ _ _ |- _ => inversion HX; subst end.
  match goal with HX : fscopes_mean _ _ _ _ _ _ _ |- _ => inversion HX; subst end.
  match goal with HX : fields_mean _ _ _ _ _ |- _ => destruct (fields_mean_In _ _ _ _ _ HX) as [_ M2] end.
  simpl in HR. destruct HR as (_ & _ & _ & HR & _).
  destruct (M2 (itt_table x) c' ty) as (f & fc & r & Hf & Hfc & Hm & Hin & _).
  { apply HR. exists l. auto. }
  assert (HB : forall k g r n, base db tables k = Some g -> g n = Some r -> In (itt_table x, c') r ->
     n = c' /\ k = itt_table x /\ exists t, In t tables /\ t_name t = itt_table x).
  { intros k g r0 n Hg Hr Hi. unfold base in Hg. destruct (existsb (fun t => seqb (t_name t) k) tables) eqn:EX; [|discriminate].
    apply existsb_exists in EX. destruct EX as (t & Ht & Hk). apply seqb_eq in Hk.
    destruct (mget db k) as [ts'|]; [|discriminate]. destruct (ts_cols ts') eqn:EC; [discriminate|]. rewrite <- EC in Hg.
    injection Hg as <-. destruct (str_in n (ts_cols ts')); [|discriminate]. inversion Hr; subst. destruct Hi as [Hi|[]].
    inversion Hi; subst. split; auto. split; auto. eauto. }
  unfold col_means in Hm. exists f, fc.
  assert (HO : ordinary fc) by (split; intros E; rewrite E in Hm; subst; destruct Hin).
  assert (Hm' : match fc_table fc with
                | [] => unqualified (start db tables nothing) (fc_name fc) r
                | a => exists f, named (start db tables nothing) a = Some f /\ f (fc_name fc) = Some r
                end).
  { destruct HO as [O1 O2]. destruct (fc_type fc); try congruence; destruct (fc_table fc); tauto. }
  clear Hm. destruct (fc_table fc) as [|a0 a] eqn:ET.
  - destruct Hm' as [(k & g & Hg & Hr)|(_ & [(k & g & Hg & _)|(_ & _ & ->)])]; [|discriminate|destruct Hin].
    destruct (HB _ _ _ _ Hg Hr Hin) as (E & _ & t & Ht & Hn). exists t. auto 10.
  - destruct Hm' as (g & Hg & Hr). unfold named in Hg. simpl in Hg.
    destruct (last_such _ tables) as [t|] eqn:EL; [|discriminate].
    rewrite last_such_find in EL. apply find_rev_In in EL. destruct EL as [EL1 EL2]. apply seqb_eq in EL2.
    destruct (base db tables (t_name t)) as [g'|] eqn:EB; [|discriminate]. inversion Hg; subst.
    destruct (HB _ _ _ _ EB Hr Hin) as (E & E2 & _). exists t. auto 10.
Qed.
(** Every suggested index is on a table the statement reads and names in its own
    FROM clause; its columns are used by the statement outside subqueries. *)
Lemma uses_kind : forall s t n ty, uses s t n ty -> ty = FReference \/ ty = FCondition \/ ty = FStar.
Proof.
  intros s t n ty (ts & ons & _ & i & Hi & Hu). destruct i as [w a|ty' a e]; [tauto|]. destruct Hu as [-> _].
  destruct s; simpl in Hi; try tauto. rewrite !in_app_iff in Hi.
  assert (HM : forall k l, In (ExprItem ty' a e) (map (ExprItem k []) l) -> ty' = k).
  { intros k l H. apply in_map_iff in H. destruct H as (x & H & _). congruence. }
  assert (HO : forall k x, In (ExprItem ty' a e) (opt_item k x) -> ty' = k).
  { intros k x H. destruct x; simpl in H; try tauto; destruct H as [H|[]]; congruence. }
  destruct Hi as [Hi|[Hi|[Hi|[Hi|[Hi|[Hi|Hi]]]]]]; try (apply HM in Hi; auto); try (apply HO in Hi; auto).
  - apply in_flat_map in Hi. destruct Hi as (x & _ & Hi). destruct x; simpl in Hi; try tauto.
    destruct x; simpl in Hi; try tauto; destruct Hi as [Hi|[]]; inversion Hi; auto.
  - destruct s4; simpl in Hi; try tauto. destruct Hi as [Hi|[Hi|[]]]; inversion Hi; auto.
Qed.
Lemma reads_inside : forall low hidden n t, reads low hidden n t ->
    exists name a, inside n (TableSource (TableName [] name) a) /\ t = map low name.
Proof.
  intros low hidden n t H. induction H as [hidden name a _|hidden n k t Hk _ (name & a & H1 & H2)].
  - exists name, a. split; [constructor|reflexivity].
  - exists name, a. split; auto. econstructor; eauto.
Qed.
Theorem mysql_suggestions_justified : forall low fold so ord ordf srt columns rows root rest its,
    (forall l, Permutation (so l) l) -> is_order ord -> is_order ordf -> is_sort itt_less srt ->
    (forall a, ~ inside root (TableSource (TableName [] []) a)) ->
    mysql_suggest low fold so ord ordf srt columns rows (Ok (root :: rest)) = Ok its ->
    forall it, In it its ->
      reads low (fun _ => False) root (it_table it) /\
      it_cols it <> [] /\ NoDup (it_cols it) /\
      forall c, In c (it_cols it) ->
        exists q n ty ts ons a t, uses root q n ty /\ (ty = FReference \/ ty = FCondition) /\ map low n = c /\
          from_clause (select_from root) ts ons /\ In (a, Some t) ts /\ map low t = it_table it /\
          (q = [] \/ map low q = map low a \/ (a = [] /\ map low q = map low t)).
Proof.
  intros low fold so ord ordf srt columns rows root rest its Hso Ho Hof Hs Hne H.
  destruct (mysql_suggest_inv _ _ _ _ _ _ _ _ _ _ H) as (root' & rest' & tables & scopes & HP & HT & HS & HF).
  inversion HP; subst root' rest'. clear HP H. intros it HI.
  assert (HC : exists crows, columns tables = Ok crows).
  { unfold suggest_from, collect_table_schemas in HF. destruct tables; [discriminate|]. destruct (columns _); try discriminate. eauto. }
  destruct HC as [crows HC].
  destruct (suggestions_useful_and_new _ _ _ _ _ _ _ _ _ _ Ho Hof Hs HC HF) as (names & infos & _ & _ & HU).
  destruct (HU it HI) as (_ & U1 & U2 & U3 & _).
  split; [now apply (mysql_table_names_exact low so root tables Hso HT)|]. split; auto. split; auto.
  intros c Hc. unfold suggest_from in HF.
  destruct (collect_table_schemas columns tables) as [schemas|m|]; cbn [obind] in HF; try discriminate.
  destruct (build ord ordf srt schemas scopes) as [its0|m|] eqn:EB; cbn [obind] in HF; try discriminate.
  destruct (remove_existing _ _ _ (seq 0 (length its0))) as [res|m|] eqn:ER; cbn [obind] in HF; try discriminate.
  inversion HF; subst its; clear HF.
  apply in_map_iff in HI. destruct HI as (p & Hp & HI).
  assert (HI0 : In it its0).
  { pose proof (existing_indexes_filtered_exactly fold (fun p => nth p its0 (mk_it [] [])) (mysql_get_indexes rows) _ (seq_NoDup (length its0) 0)) as [_ HX].
    unfold remove_existing in ER. rewrite (uniq_id Nat.eqb Nat.eqb_eq) in ER by apply seq_NoDup.
    destruct (mysql_get_indexes rows _) as [infos'|m|] eqn:EG; cbn [obind] in ER; try discriminate. inversion ER; subst res.
    unfold remove_matched in HI. apply filter_In in HI. destruct HI as [HI _]. apply in_seq in HI. rewrite <- Hp. apply nth_In. lia. }
  destruct (build_In _ _ _ _ _ _ _ Ho Hs EB HI0) as (path & sc & ts & x & Hsc & HB & Hx & ->).
  destruct (mysql_scope_sound low root scopes HS) as (fields & tabs & E & HSo). 
  pose proof HS as HS'. apply collect_scopes_1 in HS'. destruct HS' as (_ & _ & tss & ons & (_ & HFr & _) & E').
  rewrite E in Hsc. destruct Hsc as [<-|[]].
  assert (HTab : tabs = map (as_table low) tss) by (rewrite E in E'; inversion E'; reflexivity).
  simpl in Hc. destruct (flat_target_source _ _ _ _ _ _ _ _ _ Ho Hof HB Hx c Hc) as (f & fc & t & Hf & Hfc & [O1 O2] & Hn & Ht & Htn & Hq).
  destruct fc as [q n ty]. simpl in *. destruct (HSo f q n ty Hf Hfc) as [(-> & _)|(q' & n' & Hu & -> & ->)]; [congruence|].
  rewrite HTab in Ht. apply in_map_iff in Ht. destruct Ht as ([a o] & <- & Ht). simpl in Htn.
  assert (Hty : ty = FReference \/ ty = FCondition) by (destruct (uses_kind _ _ _ _ Hu) as [X|[X|X]]; auto; congruence).
  destruct o as [tn|].
  - exists q', n', ty, tss, ons, a, tn. split; auto. split; auto. split; auto. split; auto. split; auto. split; auto.
    destruct Hq as [Hq|Hq]; [left; destruct q'; auto; discriminate|].
    unfold as_or_name in Hq. simpl in Hq. destruct a as [|a0 a]; simpl in Hq; auto.
  - exfalso. simpl in Htn. apply (mysql_table_names_exact low so root tables Hso HT) in U1. simpl in U1. rewrite <- Htn in U1.
    apply reads_inside in U1. destruct U1 as (name & a' & U1 & E0). destruct name; [|discriminate]. exact (Hne _ U1).
Qed.
Definition ex_rows (names : list gostring) : outcome (list flat_row) := Ok [].
Example mysql_suggestions_justified_ex :
  (forall a, ~ inside ex_stmt (TableSource (TableName [] []) a)) /\
  mysql_suggest ascii_low ascii_fold (fun l => l) id_ord id_ord isort ex_columns ex_rows (Ok [ex_stmt])
  = Ok [tgt "tasks" ["user_id"]; tgt "tasks" ["user_id"; "title"];
        tgt "users" ["email"]; tgt "users" ["email"; "id"]; tgt "users" ["id"; "email"];
        tgt "users" ["email"; "id"; "name"]; tgt "users" ["id"; "email"; "name"]].
Proof.
  split; [|vm_compute; reflexivity]. intros a H.
  pose proof (check_inside (fun n => match n with TableSource (TableName [] []) _ => false | _ => true end) _ _ H 20 eq_refl) as X. discriminate X.
Qed.
Print Assumptions mysql_suggestions_justified.

(** ** C62 *)
(** The only way to crash is a text without any statement. *)
Theorem mysql_suggest_crash : forall low fold so ord ordf srt columns rows parsed,
    (forall names, columns names <> Panic) -> (forall names, rows names <> Panic) ->
    (forall names rs r, rows names = Ok rs -> In r rs -> fr_table r <> []) -> parsed <> Panic ->
    (mysql_suggest low fold so ord ordf srt columns rows parsed = Panic <-> parsed = Ok []).
Proof.
  intros low fold so ord ordf srt columns rows parsed HC HR HRt HP. split; [|intros ->; reflexivity].
  unfold mysql_suggest. destruct parsed as [[|root rest]|m|]; simpl; try congruence; auto.
  intros H. exfalso.
  destruct (collect_table_names low so root) as [tables|[|m errs]] eqn:E1; simpl in H; try discriminate.
  destruct (collect_table_schemas columns tables) as [schemas|m|] eqn:E2; simpl in H; try discriminate.
  2: { unfold collect_table_schemas in E2. destruct tables as [|t0 tables']; [discriminate|].
       destruct (columns (t0 :: tables')) as [crows|m|] eqn:E3; cbn [obind] in E2; try discriminate; [|now apply HC in E3].
       rewrite check_spec in E2. destruct (find _ _); discriminate. }
  destruct (collect_scopes low root) as [scopes|[|m errs]] eqn:E3; simpl in H; try discriminate.
  destruct (build ord ordf srt schemas scopes) as [its|m|] eqn:E4; cbn [obind] in H; try discriminate.
  - unfold remove_existing in H.
    destruct (mysql_get_indexes rows _) as [infos|m|] eqn:E5; cbn [obind] in H; try discriminate.
    unfold mysql_get_indexes in E5. destruct (uniq seqb _) as [|n0 names]; [discriminate|].
    destruct (rows (n0 :: names)) as [rs|m|] eqn:E6; cbn [obind] in E5; try discriminate; [|now apply HR in E6].
    rewrite to_index_info_groups in E5; [discriminate|]. intros [t i c] Hr E. destruct rs as [|r rs]; [discriminate|].
    simpl in Hr. injection Hr as ->. unfold row_key in E. simpl in E. apply (HRt _ _ _ E6 (or_introl eq_refl)). simpl. congruence.
  - apply (build_never_crashes ord ordf srt schemas scopes); auto.
    destruct (mysql_scope_sound low root scopes E3) as (fields & tabs & -> & _). constructor; [|constructor]. simpl. auto.
Qed.
Print Assumptions mysql_suggest_crash.
Example mysql_suggest_crash_ex :
  mysql_suggest ascii_low ascii_fold (fun l => l) id_ord id_ord isort ex_columns ex_rows (Ok []) = Panic /\
  mysql_suggest ascii_low ascii_fold (fun l => l) id_ord id_ord isort ex_columns ex_rows (Ok [with_stmt]) <> Panic.
Proof. split; vm_compute; [reflexivity|discriminate]. Qed.

(** ** C63 *)
Lemma flat_uses_resolve : forall ord ordf srt schemas name fields tables its f c, is_order ord ->
    build ord ordf srt schemas [Scope name fields [] tables []] = Ok its ->
    In f fields -> In c (f_cols f) -> ordinary c ->
    exists t, In t tables /\ (fc_table c = [] \/ as_or_name t = fc_table c) /\ schema_col (schema_map schemas) (t_name t, fc_name c).
Proof.
  intros ord ordf srt schemas name fields tables its f c Ho H Hf Hc [O1 O2]. unfold build in H. simpl in H.
  destruct (build_from_scope ord ordf (schema_map schemas) [0] _) as [ts|m|] eqn:E; cbn [obind] in H; try discriminate.
  unfold build_from_scope in E. destruct (table_fields ord _ _ _) as [rf|m|] eqn:ET; cbn [obind] in E; try discriminate.
  destruct (table_fields_sound _ _ _ _ _ Ho ET) as (o & us & HM & _). inversion HM; subst. clear HM.
  match goal with HX : subs_mean _ _ _ _ _ _ _ _ |- _ => inversion HX; subst end.
  match goal with HX : fscopes_mean _ _ _ _ _ _ _ |- _ => inversion HX; subst end.
  match goal with HX : fields_mean _ _ _ _ _ |- _ => destruct (fields_mean_In _ _ _ _ _ HX) as [M1 _] end.
  destruct (M1 f c Hf Hc) as (r & Hm & _). unfold col_means in Hm.
  assert (HB : forall k g r n, base (schema_map schemas) tables k = Some g -> g n = Some r ->
     (exists t, In t tables /\ t_name t = k) /\ schema_col (schema_map schemas) (k, n)).
  { intros k g r0 n Hg Hr. unfold base in Hg. destruct (existsb (fun t => seqb (t_name t) k) tables) eqn:EX; [|discriminate].
    apply existsb_exists in EX. destruct EX as (t & Ht & Hk). apply seqb_eq in Hk.
    destruct (mget _ k) as [ts'|] eqn:EM; [|discriminate]. destruct (ts_cols ts') eqn:EC; [discriminate|]. rewrite <- EC in Hg.
    injection Hg as <-. destruct (str_in n (ts_cols ts')) eqn:ES; [|discriminate]. split; eauto.
    exists ts'. split; auto. now apply str_in_iff. }
  assert (Hm' : match fc_table c with
                | [] => unqualified (start (schema_map schemas) tables nothing) (fc_name c) r
                | a => exists f, named (start (schema_map schemas) tables nothing) a = Some f /\ f (fc_name c) = Some r
                end).
  { destruct (fc_type c); try congruence; destruct (fc_table c); tauto. }
  clear Hm. destruct (fc_table c) as [|a0 a] eqn:EQ.
  - destruct Hm' as [(k & g & Hg & Hr)|(_ & [(k & g & Hg & _)|(_ & Hsq & _)])]; [|discriminate|elim Hsq; reflexivity].
    destruct (HB _ _ _ _ Hg Hr) as ((t & Ht & <-) & HS). eauto.
  - destruct Hm' as (g & Hg & Hr). unfold named in Hg. simpl in Hg.
    destruct (last_such _ tables) as [t|] eqn:EL; [|discriminate].
    rewrite last_such_find in EL. apply find_rev_In in EL. destruct EL as [EL1 EL2]. apply seqb_eq in EL2.
    destruct (base _ tables (t_name t)) as [g'|] eqn:EB; [|discriminate]. inversion Hg; subst.
    destruct (HB _ _ _ _ EB Hr) as (_ & HS). exists t. auto.
Qed.
(** Suggesting succeeds only if every column used outside subqueries is a column of
    a base table of the FROM clause; in the case of a qualified one, of the table
    so named. *)
Theorem mysql_every_use_is_a_base_column : forall low fold so ord ordf srt columns rows root rest its,
    is_order ord -> lossless_select root ->
    mysql_suggest low fold so ord ordf srt columns rows (Ok (root :: rest)) = Ok its ->
    exists tables crows ts ons, columns tables = Ok crows /\ from_clause (select_from root) ts ons /\
      forall q n ty, uses root q n ty -> ty <> FStar ->
        exists a t pk, In (a, t) ts /\ In (match t with Some t => map low t | None => [] end, map low n, pk) crows /\
          (q = [] \/ map low q = map low a \/ (a = [] /\ map low q = match t with Some t => map low t | None => [] end)).
Proof.
  intros low fold so ord ordf srt columns rows root rest its Ho HL H.
  destruct (mysql_suggest_inv _ _ _ _ _ _ _ _ _ _ H) as (root' & rest' & tables & scopes & HP & HT & HS & HF).
  inversion HP; subst root' rest'. clear HP H. unfold suggest_from in HF.
  destruct (collect_table_schemas columns tables) as [schemas|m|] eqn:ES; cbn [obind] in HF; try discriminate.
  destruct (build ord ordf srt schemas scopes) as [its0|m|] eqn:EB; cbn [obind] in HF; try discriminate. clear HF.
  assert (HC : exists crows, columns tables = Ok crows /\ schemas = map (fun t => schema_from t crows) tables).
  { unfold collect_table_schemas in ES. destruct tables as [|t0 tables']; [discriminate|].
    destruct (columns _) as [crows|m|]; cbn [obind] in ES; try discriminate. exists crows. split; auto.
    rewrite check_spec in ES. destruct (find _ _); [discriminate|]. congruence. }
  destruct HC as (crows & HC & ->).
  destruct (mysql_scope_uses low root scopes HL HS) as (fields & tabs & E & HU).
  apply collect_scopes_1 in HS. destruct HS as (_ & _ & tss & ons & (_ & HFr & _) & E').
  assert (HTab : tabs = map (as_table low) tss) by (rewrite E in E'; inversion E'; reflexivity). clear E'. subst scopes.
  exists tables, crows, tss, ons. split; auto. split; auto. intros q n ty Hu Hty.
  assert (Hty' : ty <> FSubquery) by (destruct (uses_kind _ _ _ _ Hu) as [->|[->| ->]]; discriminate).
  destruct (proj2 (HU (map low q) (map low n) ty Hty')) as (f & Hf & Hfc); [eauto|].
  destruct (flat_uses_resolve _ _ _ _ _ _ _ _ _ _ Ho EB Hf Hfc) as (t & Ht & Hq & HCol); [split; assumption|].
  rewrite HTab in Ht. apply in_map_iff in Ht. destruct Ht as ([a o] & <- & Ht). simpl in *.
  destruct HCol as (ts & Hg & HIn). apply schema_map_get in Hg. destruct Hg as [Hg Hn]. apply in_map_iff in Hg.
  destruct Hg as (t' & <- & Hg). simpl in Hn, HIn. subst t'.
  apply in_map_iff in HIn. destruct HIn as ([[t1 c1] pk] & E1 & HIn). simpl in E1. subst c1.
  apply filter_In in HIn. destruct HIn as [HIn E1]. simpl in E1. apply seqb_eq in E1. subst t1.
  exists a, o, pk. split; auto. split; auto.
  destruct Hq as [Hq|Hq]; [left; destruct q; auto; discriminate|]. right.
  unfold as_or_name in Hq. simpl in Hq. destruct a as [|a0 a]; simpl in Hq; auto.
Qed.
Example mysql_every_use_is_a_base_column_ex : lossless_select ex_stmt /\
  (exists its, mysql_suggest ascii_low ascii_fold (fun l => l) id_ord id_ord isort ex_columns ex_rows (Ok [ex_stmt]) = Ok its) /\
  uses ex_stmt (lit "u") (lit "Email") FCondition.
Proof.
  split; [apply mysql_scope_exact_ex|]. split; [|apply mysql_scope_uses_ex].
  eexists. vm_compute. reflexivity.
Qed.
Print Assumptions mysql_every_use_is_a_base_column.
(** So ordinary statements fail, whatever the map orders: ordering by an output
    name, and reading a column of a derived table. *)
(** SELECT name AS n FROM users ORDER BY n *)
Definition alias_stmt : node :=
  Select [] [SelectField (col "" "name") [] (lit "n")] (tab "users" "") Nil [] Nil [] [col "" "n"] Nil false.
(** SELECT s.id FROM (SELECT id FROM users) s *)
Definition derived_stmt : node :=
  Select [] [SelectField (col "s" "id") [] []] (TableSource (sel [sf (col "" "id")] (tab "users" "") Nil) (lit "s")) Nil [] Nil [] [] Nil false.
Theorem mysql_valid_statements_refuted : forall fold so ord ordf srt rows,
    (forall l, Permutation (so l) l) -> is_order ord -> is_order ordf -> is_sort itt_less srt ->
    (exists m, mysql_suggest ascii_low fold so ord ordf srt ex_columns rows (Ok [alias_stmt]) = Err m) /\
    (exists m, mysql_suggest ascii_low fold so ord ordf srt ex_columns rows (Ok [derived_stmt]) = Err m).
Proof.
  intros fold so ord ordf srt rows Hso Ho Hof Hs.
  assert (HX : forall root q n ty ts ons, lossless_select root -> from_clause (select_from root) ts ons ->
     uses root q n ty -> ty <> FStar ->
     (forall a t pk crows, In (a, t) ts -> ex_columns [] = Ok crows -> ~ In (match t with Some t => map ascii_low t | None => [] end, map ascii_low n, pk) crows) ->
     (exists scs, collect_scopes ascii_low root = inl scs) ->
     (exists r, collect_table_names ascii_low so root = inl r /\ Permutation r [users]) ->
     exists m, mysql_suggest ascii_low fold so ord ordf srt ex_columns rows (Ok [root]) = Err m).
  { intros root q n ty ts ons HL HF HU Hty Hno (scs & HS) (r & HT & HP).
    apply Permutation_sym, Permutation_length_1_inv in HP. subst r.
    destruct (mysql_suggest ascii_low fold so ord ordf srt ex_columns rows (Ok [root])) as [its|m|] eqn:E; [|eauto|].
    - exfalso. destruct (mysql_every_use_is_a_base_column _ _ _ _ _ _ _ _ _ _ _ Ho HL E) as (tables & crows & ts' & ons' & HC & HF' & HX).
      destruct (from_clause_fun _ _ _ HF _ _ HF') as [<- <-].
      destruct (HX q n ty HU Hty) as (a & t & pk & H1 & H2 & _). exact (Hno a t pk crows H1 HC H2).
    - exfalso. unfold mysql_suggest in E. cbn [obind] in E. rewrite HT, HS in E. cbn [first_error obind] in E.
      destruct (collect_table_schemas ex_columns [users]) as [schemas|m|] eqn:EC; cbn [obind] in E; try discriminate.
      destruct (build ord ordf srt schemas scs) as [its|m|] eqn:EB; cbn [obind] in E; try discriminate.
      + destruct (mysql_scope_uses ascii_low root scs HL HS) as (fields & tabs & -> & HUs).
        assert (Hty' : ty <> FSubquery) by (destruct (uses_kind _ _ _ _ HU) as [->|[->| ->]]; discriminate).
        destruct (proj2 (HUs (map ascii_low q) (map ascii_low n) ty Hty')) as (f & Hf & Hfc); [eauto|].
        destruct (flat_uses_resolve _ _ _ _ _ _ _ _ _ _ Ho EB Hf Hfc) as (t & Ht & Hq & HCol); [split; assumption|].
        apply collect_scopes_1 in HS. destruct HS as (_ & _ & tss & ons' & (_ & HFr & _) & E').
        destruct (from_clause_fun _ _ _ HF _ _ HFr) as [<- <-].
        assert (HTab : tabs = map (as_table ascii_low) ts) by (inversion E'; reflexivity).
        rewrite HTab in Ht. apply in_map_iff in Ht. destruct Ht as ([a o] & <- & Ht).
        destruct HCol as (sch & Hg & HIn). apply schema_map_get in Hg. destruct Hg as [Hg Hn].
        vm_compute in EC. inversion EC; subst schemas. destruct Hg as [<-|[]]. simpl in Hn.
        refine (Hno a o (seqb (map ascii_low n) (lit "id")) _ Ht eq_refl _). simpl in HIn.
        change (match o with Some t => map ascii_low t | None => [] end) with (t_name (as_table ascii_low (a, o))). simpl t_name in *.
        rewrite <- Hn. simpl fc_name in HIn. destruct HIn as [<-|[<-|[<-|[]]]]; vm_compute; tauto.
      + apply (build_never_crashes ord ordf srt schemas scs) in EB; auto.
        destruct (mysql_scope_sound ascii_low root scs HS) as (fields & tabs & -> & _). constructor; [|constructor]. simpl. auto. }
  split.
  - apply (HX alias_stmt [] (lit "n") FReference [([], Some users)] []).
    + eapply lossless_select_check; [constructor|]. vm_compute. reflexivity.
    + constructor.
    + eexists _, _. split; [constructor|]. exists (ExprItem FReference [] (col "" "n")). split; [vm_compute; tauto|].
      split; auto. eexists. split; [constructor|]. now left.
    + discriminate.
    + intros a t pk crows [E|[]] E2 H. inversion E; subst. inversion E2; subst. vm_compute in H. intuition discriminate.
    + eexists. vm_compute. reflexivity.
    + eexists. split; [|apply Hso]. reflexivity.
  - apply (HX derived_stmt (lit "s") (lit "id") FReference [(lit "s", None)] []).
    + eapply lossless_select_check; [constructor|]. vm_compute. reflexivity.
    + constructor.
    + eexists _, _. split; [constructor|]. exists (ExprItem FReference [] (col "s" "id")). split; [vm_compute; tauto|].
      split; auto. eexists. split; [constructor|]. now left.
    + discriminate.
    + intros a t pk crows [E|[]] E2 H. inversion E; subst. inversion E2; subst. vm_compute in H. intuition discriminate.
    + eexists. vm_compute. reflexivity.
    + eexists. split; [|apply Hso]. reflexivity.
Qed.
Print Assumptions mysql_valid_statements_refuted.
