(** C123: a statement is refused with words that are true of it. *)
From Coq Require Import String List NArith Bool Lia.
From Verif Require Import Base IndexText IndexBuild TableFields Existing MysqlAst MysqlCollect MysqlSpec MysqlProofs RefusalSpec.
From Verif Require MysqlProperties.
Import ListNotations.
Local Open Scope string_scope.
Local Open Scope list_scope.

Section Mysql.
Context (low : rune -> rune).
Let collect := collect_expr low.
Lemma collect_said : forall n ty m, snd (collect ty n None) = Some m -> exists x, part n x /\ odd_expression x m.
Proof.
  induction n as [n IH] using node_ind'. rewrite Forall_forall in IH. intros ty m H.
  assert (HL : forall l, (forall x, In x l -> In x (seen n)) -> snd (collect_list low ty l None) = Some m -> exists k x, In k (seen n) /\ part k x /\ odd_expression x m).
  { induction l as [|x l IHl]; intros Hl HS; cbn [collect_list] in HS; [discriminate|].
    rewrite (surjective_pairing (collect_expr low ty x None)) in HS. rewrite collect_list_pass in HS. cbn [snd] in HS.
    destruct (snd (collect_list low ty l None)) as [m'|] eqn:E.
    - cbn [set_err] in HS. injection HS as ->. apply IHl; [intros y Hy; apply Hl; now right|reflexivity].
    - cbn [set_err] in HS. assert (Hx : In x (seen n)) by (apply Hl; now left). destruct (IH x (proj1 (seen_kids n x Hx)) ty m HS) as (y & H1 & H2). exists x, y. auto. }
  assert (HP : plain n -> exists x, part n x /\ odd_expression x m).
  { intros Hp. unfold collect in H. rewrite collect_plain in H by exact Hp. destruct (HL (seen n) (fun x K => K) H) as (k & x & H1 & H2 & H3).
    destruct (seen_kids n k H1) as [H4 H5]. exists x. split; [|exact H3]. econstructor; eauto. }
  assert (HS : forall x, snd (collect ty n None) = Some x -> odd_expression n x -> exists x, part n x /\ odd_expression x m).
  { intros x K HO. rewrite K in H. injection H as ->. exists n. split; [constructor|exact HO]. }
  destruct n; try (apply HP; split; cbn; tauto); try discriminate H;
    try (cbn in H; injection H as <-; eexists; split; [apply part_self|]; apply odd_other; right; exact I).
  - destruct t; try discriminate H; cbn in H; injection H as <-; eexists; (split; [apply part_self|]); try constructor. now left.
  - cbn in H. fold collect in H. destruct (collect ty n None) as [r1 l1] eqn:E. cbn in H. destruct (IH n (or_introl eq_refl) ty m) as (x & H1 & H2); [rewrite E; exact H|].
    exists x. split; [|exact H2]. econstructor; [discriminate|left; reflexivity|exact H1].
Qed.
Lemma collect_told : forall n ty le m, snd (collect_expr low ty n le) = Some m -> le = Some m \/ exists x, part n x /\ odd_expression x m.
Proof.
  intros n ty le m H. rewrite collect_pass in H. cbn [snd] in H. destruct (snd (collect_expr low ty n None)) as [m'|] eqn:E.
  - cbn [set_err] in H. injection H as ->. right. now apply (collect_said n ty).
  - now left.
Qed.

(** What a SELECT may be said of *)
Section Select.
Context (P : gostring -> Prop).
Definition pending (le : option gostring) : Prop := forall m, le = Some m -> P m.
Definition all_said (errs : list gostring) : Prop := forall m, In m errs -> P m.
Definition good (e : node) : Prop := forall x m, part e x -> odd_expression x m -> P m.
Lemma said_more : forall errs m, all_said errs -> P m -> all_said (errs ++ [m]).
Proof. intros errs m H1 H2 x K. apply in_app_or in K as [K|[<-|[]]]; auto. Qed.
Lemma none_pending : pending None.
Proof. intros m H. discriminate. Qed.
Lemma collect_pending : forall n ty le, good n -> pending le -> pending (snd (collect_expr low ty n le)).
Proof. intros n ty le HG HL m H. destruct (collect_told _ _ _ _ H) as [K|(x & H1 & H2)]; [now apply HL|]. now apply (HG x). Qed.
Lemma expr_field_said : forall ty a e le errs, good e -> pending le -> all_said errs -> all_said (snd (expr_field low ty a e le errs)).
Proof.
  intros ty a e le errs HG HL HE. unfold expr_field. pose proof (collect_pending e ty le HG HL) as H. destruct (collect_expr low ty e le) as [cols [m|]]; cbn [snd] in *; [|exact HE].
  apply said_more; auto.
Qed.
Lemma expr_fields_said : forall ty es le errs, (forall e, In e es -> good e) -> pending le -> all_said errs ->
    all_said (snd (fst (expr_fields low ty es le errs))) /\ pending (snd (expr_fields low ty es le errs)).
Proof.
  intros ty. induction es as [|e es IH]; intros le errs HG HL HE; cbn [expr_fields]; [split; assumption|].
  pose proof (expr_field_said ty [] e le errs (HG e (or_introl eq_refl)) HL HE) as H1. destruct (expr_field low ty [] e le errs) as [f errs1]. cbn [snd] in H1.
  specialize (IH None errs1 (fun x K => HG x (or_intror K)) none_pending H1). destruct (expr_fields low ty es None errs1) as [[fs errs2] le2]. cbn [fst snd] in *. exact IH.
Qed.
Lemma opt_field_said : forall ty e le errs, good e -> pending le -> all_said errs ->
    all_said (snd (fst (opt_field low ty e le errs))) /\ pending (snd (opt_field low ty e le errs)).
Proof.
  intros ty e le errs HG HL HE. pose proof (expr_field_said ty [] e le errs HG HL HE) as H1.
  destruct (expr_field low ty [] e le errs) as [f errs1] eqn:E. unfold opt_field. destruct e; rewrite ?E; cbn [fst snd] in *; split; try assumption; apply none_pending.
Qed.
Lemma select_fields_said : forall l le errs, (forall e w a, In (SelectField e w a) l -> good e) -> pending le -> all_said errs ->
    all_said (snd (fst (select_fields low l le errs))) /\ pending (snd (select_fields low l le errs)).
Proof.
  induction l as [|x l IH]; intros le errs HG HL HE; [split; assumption|].
  assert (HG' : forall e w a, In (SelectField e w a) l -> good e) by (intros e w a K; apply (HG e w a); now right).
  destruct x; try (cbn [select_fields]; now apply IH).
  assert (HX : x <> Nil -> select_fields low (SelectField x wild as_ :: l) le errs =
     let '(f, errs) := expr_field low FReference (L low as_) x le errs in
     let '(fs, errs, le) := select_fields low l None errs in (f ++ fs, errs, le)).
  { intros K. destruct x; try reflexivity. now elim K. }
  assert (D : x = Nil \/ x <> Nil) by (destruct x; (now left) || (right; discriminate)). destruct D as [->|D].
  - cbn [select_fields]. specialize (IH le errs HG' HL HE). destruct (select_fields low l le errs) as [[fs e1] le1]. exact IH.
  - rewrite (HX D). pose proof (expr_field_said FReference (L low as_) x le errs (HG x wild as_ (or_introl eq_refl)) HL HE) as H1.
    destruct (expr_field low FReference (L low as_) x le errs) as [f errs1]. cbn [snd] in H1.
    specialize (IH None errs1 HG' none_pending H1). destruct (select_fields low l None errs1) as [[fs errs2] le2]. exact IH.
Qed.
Lemma tables_said : forall n le, (forall x m, joined n x -> odd_reference x m -> P m) -> (forall l r on u, joined n (Join l r on u) -> good on) -> pending le ->
    pending (snd (collect_tables low n le)).
Proof.
  induction n as [n IH] using node_ind'. rewrite Forall_forall in IH. intros le HR HO HL.
  assert (HJ : forall l r on u, joined n (Join l r on u) -> (forall le, pending le -> pending (snd (collect_tables low l le))) ->
     (forall le, pending le -> pending (snd (collect_tables low r le))) -> forall le, pending le -> pending (snd (join_tables low l r on le))).
  { intros l r on u HJ H1 H2 le' HL'. unfold join_tables. specialize (H1 le' HL'). destruct (collect_tables low l le') as [[t1 f1] le1]. cbn [snd] in H1.
    specialize (H2 le1 H1). destruct (collect_tables low r le1) as [[t2 f2] le2]. cbn [snd] in H2.
    pose proof (collect_pending on FCondition le2 (HO _ _ _ _ HJ) H2) as H3. destruct on; try exact H2; destruct (collect_expr low FCondition _ le2) as [jcols jle]; exact H3. }
  assert (HK : forall m, odd_reference n m -> P m) by (intros m K; apply (HR n m); [constructor|exact K]).
  destruct n; try exact HL; try (cbn [collect_tables snd]; intros m K; injection K as <-; apply HK; apply odd_place; exact I).
  - (* TableSource *)
    destruct n; try (cbn [collect_tables snd]; intros m K; injection K as <-; apply HK; apply odd_kind; [exact I|discriminate]).
    + exact HL.
    + cbn [collect_tables snd]. intros m K. injection K as <-. apply HK. apply odd_named. apply odd_union.
    + destruct schema as [|c s]; [exact HL|]. cbn [collect_tables snd]. intros m K. injection K as <-. apply HK. apply odd_named. unfold err_schema. apply odd_database. discriminate.
    + rewrite collect_paren. pose proof (fun l r on u x (K : joined (Join l r on u) x) => j_paren l r on u as_ x K) as HT.
      assert (HIn : forall le, pending le -> pending (snd (collect_tables low (Join n1 n2 n3 using_) le))).
      { intros le' HL'. apply (IH _ (or_introl eq_refl)); [|intros l r on u K; apply (HO l r on u); now apply HT|exact HL'].
        intros x m K. apply HR. now apply HT. }
      rewrite <- (collect_join low n1 n2 n3 using_). now apply HIn.
  - (* Join *)
    rewrite collect_join. apply (HJ n1 n2 n3 using_); [constructor| | |exact HL].
    + intros le' HL'. apply (IH n1); [left; reflexivity| | |exact HL'].
      * intros x m K. apply HR. now apply j_left.
      * intros l r on u K. apply (HO l r on u). now apply j_left.
    + intros le' HL'. apply (IH n2); [right; left; reflexivity| | |exact HL'].
      * intros x m K. apply HR. now apply j_right.
      * intros l r on u K. apply (HO l r on u). now apply j_right.
Qed.
Lemma enter_said : forall s c, (forall m, odd_select s m -> P m) -> (forall e, clause s e -> good e) ->
    (forall x m, joined (select_from s) x -> odd_reference x m -> P m) -> all_said (c_errors c) -> pending (c_last c) ->
    all_said (c_errors (enter_scope low s c)) /\ pending (c_last (enter_scope low s c)).
Proof.
  intros s c HS HC HF HE HL. destruct s; try (split; assumption). rewrite enter_select. cbv zeta.
  assert (C1 : forall e w a, In (SelectField e w a) fields -> good e) by (intros e w a K; apply HC; left; eauto).
  destruct (select_fields_said fields (c_last c) (c_errors c) C1 HL HE) as [E1 L1]. destruct (select_fields low fields (c_last c) (c_errors c)) as [[f1 e1] l1]. cbn [fst snd] in E1, L1.
  assert (C2 : all_said (snd (fst (from_field low s1 l1 e1))) /\ pending (snd (from_field low s1 l1 e1))).
  { assert (K : pending (snd (collect_tables low s1 l1))).
    { apply tables_said; [exact HF| |exact L1]. intros l r on u K. apply HC. right. left. eauto. }
    destruct (collect_tables low s1 l1) as [[ts fs] le] eqn:E. cbn [snd] in K.
    assert (D : s1 = Nil \/ from_field low s1 l1 e1 = (ts, fs, match le with Some m => e1 ++ [m] | None => e1 end, None)) by (destruct s1; (now left) || (right; cbn [from_field]; rewrite E; reflexivity)).
    destruct D as [-> | ->]; [split; assumption|]. cbn [fst snd]. split; [|apply none_pending]. destruct le as [m|]; [|exact E1]. apply said_more; auto. }
  destruct (from_field low s1 l1 e1) as [[[ts f2] e2] l2]. cbn [fst snd] in C2. destruct C2 as [E2 L2].
  destruct (opt_field_said FCondition s2 l2 e2) as [E3 L3]; [apply HC; right; right; now left|exact L2|exact E2|]. destruct (opt_field low FCondition s2 l2 e2) as [[f3 e3] l3]. cbn [fst snd] in E3, L3.
  destruct (expr_fields_said FReference group_by l3 e3) as [E4 L4]; [intros e K; apply HC; do 3 right; now left|exact L3|exact E3|]. destruct (expr_fields low FReference group_by l3 e3) as [[f4 e4] l4]. cbn [fst snd] in E4, L4.
  destruct (opt_field_said FReference s3 l4 e4) as [E5 L5]; [apply HC; do 4 right; now left|exact L4|exact E4|]. destruct (opt_field low FReference s3 l4 e4) as [[f5 e5] l5]. cbn [fst snd] in E5, L5.
  assert (E5' : all_said (match windows with [] => e5 | _ => e5 ++ [err_window] end)).
  { destruct windows; [exact E5|]. apply said_more; [exact E5|]. apply HS. apply odd_window. exact I. }
  set (e5' := match windows with [] => e5 | _ => e5 ++ [err_window] end) in *.
  destruct (expr_fields_said FReference order_by l5 e5') as [E6 L6]; [intros e K; apply HC; do 5 right; now left|exact L5|exact E5'|].
  destruct (expr_fields low FReference order_by l5 e5') as [[f6 e6] l6]. cbn [fst snd] in E6, L6.
  assert (C7 : all_said (snd (fst (limit_field low s4 l6 e6))) /\ pending (snd (limit_field low s4 l6 e6))).
  { destruct s4; try (split; assumption). unfold limit_field.
    assert (G1 : good s4_1) by (apply HC; do 6 right; eauto). assert (G2 : good s4_2) by (apply HC; do 6 right; eauto).
    pose proof (expr_field_said FReference [] s4_1 l6 e6 G1 L6 E6) as K1. destruct (expr_field low FReference [] s4_1 l6 e6) as [fa ea]. cbn [snd] in K1.
    pose proof (expr_field_said FReference [] s4_2 None ea G2 none_pending K1) as K2. destruct (expr_field low FReference [] s4_2 None ea) as [fb eb]. cbn [fst snd] in *.
    split; [exact K2|apply none_pending]. }
  destruct (limit_field low s4 l6 e6) as [[f7 e7] l7]. cbn [fst snd] in C7. destruct C7 as [E7 L7]. cbn [c_errors c_last]. split; [exact E7|].
  destruct ctes; [destruct values_|].
  - intros m K. injection K as <-. apply HS. apply odd_values_statement. exact I.
  - exact L7.
  - intros m K. injection K as <-. apply HS. apply odd_with. exact I.
Qed.
End Select.
Lemma inside_trans : forall a b c, inside a b -> inside b c -> inside a c.
Proof. intros a b c H. induction H; intros K; [exact K|]. econstructor; eauto. Qed.
Lemma walk_said : forall root n c, inside root n -> all_said (my_complaint root) (c_errors c) -> pending (my_complaint root) (c_last c) ->
    all_said (my_complaint root) (c_errors (walk (enter_scope low) leave_scope n c)) /\ pending (my_complaint root) (c_last (walk (enter_scope low) leave_scope n c)).
Proof.
  intros root. induction n as [n IH] using node_ind'. rewrite Forall_forall in IH. intros c HI HE HL. rewrite walk_eq.
  assert (HF : forall l c', (forall k, In k l -> In k (kids n)) -> all_said (my_complaint root) (c_errors c') -> pending (my_complaint root) (c_last c') ->
     all_said (my_complaint root) (c_errors (fold_left (fun s k => walk (enter_scope low) leave_scope k s) l c')) /\
     pending (my_complaint root) (c_last (fold_left (fun s k => walk (enter_scope low) leave_scope k s) l c'))).
  { induction l as [|k l IHl]; intros c' Hl A B; [split; assumption|]. cbn [fold_left]. destruct (IH k (Hl k (or_introl eq_refl)) c') as [A' B']; [|exact A|exact B|].
    - apply (inside_trans _ _ _ HI). econstructor; [apply Hl; now left|constructor].
    - apply IHl; [intros y Hy; apply Hl; now right|exact A'|exact B']. }
  destruct (enter_said (my_complaint root) n c) as [A B]; try assumption.
  - intros m K. eapply mc_select; eauto.
  - intros e HC x m H1 H2. eapply mc_expression; eauto.
  - intros x m H1 H2. eapply mc_from; eauto.
  - now apply HF.
Qed.
Theorem mysql_scopes_refused_with : forall root errs, collect_scopes low root = inr errs -> errs <> [] /\ forall m, In m errs -> my_complaint root m.
Proof.
  intros root errs H.
  assert (HS : is_select root -> errs <> [] /\ forall m, In m errs -> my_complaint root m).
  { intros HS. assert (H' : match c_errors (walk (enter_scope low) leave_scope root (mk_coll [] [] None)) with [] => inl (c_scopes (walk (enter_scope low) leave_scope root (mk_coll [] [] None))) | errs => inr errs end = inr errs)
      by (destruct root; try contradiction; exact H).
    destruct (walk_said root root (mk_coll [] [] None) (inside_self root)) as [A _]; [intros m K; contradiction|intros m K; discriminate|].
    destruct (c_errors (walk (enter_scope low) leave_scope root (mk_coll [] [] None))) as [|m l]; [discriminate|]. injection H' as <-. split; [discriminate|exact A]. }
  destruct root; try (apply HS; exact I); injection H as <-; (split; [discriminate|]); intros m [<-|[]]; apply mc_root; try (apply odd_root; [intros K; exact K|discriminate]).
  apply odd_root_union.
Qed.
Lemma twalk_said : forall root n tc, inside root n -> all_said (my_name_complaint root) (tc_errors tc) ->
    all_said (my_name_complaint root) (tc_errors (walk (enter_table low) leave_table n tc)).
Proof.
  intros root. induction n as [n IH] using node_ind'. rewrite Forall_forall in IH. intros tc HI HE. rewrite twalk_eq.
  assert (HF : forall l tc', (forall k, In k l -> In k (kids n)) -> all_said (my_name_complaint root) (tc_errors tc') ->
     all_said (my_name_complaint root) (tc_errors (fold_left (fun s k => walk (enter_table low) leave_table k s) l tc'))).
  { induction l as [|k l IHl]; intros tc' Hl A; [assumption|]. cbn [fold_left]. apply IHl; [intros y Hy; apply Hl; now right|].
    apply IH; [apply Hl; now left| |exact A]. apply (inside_trans _ _ _ HI). econstructor; [apply Hl; now left|constructor]. }
  rewrite (proj2 (leave_tables _ _)). apply HF; [auto|]. rewrite enter_table_errors. intros m K. apply in_app_or in K as [K|K]; [now apply HE|].
  unfold source_error in K. destruct n; try contradiction. destruct n; try contradiction; try (destruct K as [<-|[]]; unfold err_child; eapply mn_kind; [exact HI|exact I]).
  - destruct K as [<-|[]]. eapply mn_source; [exact HI|apply odd_union].
  - destruct schema as [|c s]; [contradiction|]. destruct K as [<-|[]]. eapply mn_source; [exact HI|]. apply odd_database. discriminate.
Qed.
Theorem mysql_names_refused_with : forall ord root errs, collect_table_names low ord root = inr errs -> errs <> [] /\ forall m, In m errs -> my_name_complaint root m.
Proof.
  intros ord root errs H.
  assert (HS : is_select root -> errs <> [] /\ forall m, In m errs -> my_name_complaint root m).
  { intros HS. pose proof (twalk_said root root (mk_tc [] [] []) (inside_self root) (fun m K => match K with end)) as A.
    assert (H' : match tc_errors (walk (enter_table low) leave_table root (mk_tc [] [] [])) with
      | [] => inl (ord (fold_left (fun s t => if str_in t s then s else s ++ [t]) (tc_tables (walk (enter_table low) leave_table root (mk_tc [] [] []))) []))
      | errs => inr errs end = inr errs) by (destruct root; try contradiction; exact H).
    destruct (tc_errors (walk (enter_table low) leave_table root (mk_tc [] [] []))) as [|m l]; [discriminate|]. injection H' as <-. split; [discriminate|exact A]. }
  destruct root; try (apply HS; exact I); injection H as <-; (split; [discriminate|]); intros m [<-|[]]; apply mn_root; try (apply odd_root; [intros K; exact K|discriminate]).
  apply odd_root_union.
Qed.
End Mysql.
Section Examples.
Local Definition one (fields : list node) (from wh : node) : node := Select [] fields from wh [] Nil [] [] Nil false.
Local Definition users_ : node := TableSource (TableName [] (lit "users")) [].
Local Definition id_ : node := SelectField (Column [] (lit "id")) [] [].
(** A DEFAULT; a MAXVALUE below a VALUES marker, which alone is not told; a WINDOW and a WITH; a
    table of a named database; a UNION read as a table; a UNION; something not a SELECT *)
Example mysql_scopes_refused_with_ex : forall low,
    collect_scopes low (one [id_] users_ (E2 BinaryOperationExpr (Column [] (lit "a")) (E0 DefaultExpr))) = inr [lit "DEFAULT is not expected"] /\
    collect_scopes low (Select [] [id_] users_ (E0 MaxValueExpr) [] Nil [] [] Nil true) = inr [lit "MAXVALUE is not expected"] /\
    collect_scopes low (Select [Cte (lit "c") (Subquery (one [id_] users_ Nil))] [id_] users_ Nil [] Nil [Nil] [] Nil false) = inr [lit "not supporting WINDOW"; lit "WITH is not expected"] /\
    collect_scopes low (one [id_] (TableSource (TableName (lit "shop") (lit "users")) []) Nil) = inr [lit "not supporting query referencing database explicitly: shop.users"] /\
    collect_scopes low (one [id_] (TableSource (SetOpr [one [id_] users_ Nil]) (lit "x")) Nil) = inr [lit "not supporting UNION, EXCEPT etc."] /\
    collect_scopes low (SetOpr [one [id_] users_ Nil]) = inr [lit "not supporting UNION, EXCEPT etc."] /\
    collect_scopes low (E0 ValueExpr) = inr [lit "only SELECT query is supported"].
Proof. intros low. repeat apply conj; vm_compute; reflexivity. Qed.
Example mysql_names_refused_with_ex : forall low ord,
    collect_table_names low ord (one [id_] (TableSource (TableName (lit "shop") (lit "users")) []) Nil) = inr [lit "not supporting query referencing database explicitly: shop.users"] /\
    collect_table_names low ord (one [id_] (TableSource (Join users_ users_ Nil []) []) Nil) = inr [lit "parent: , child: "] /\
    collect_table_names low ord (E0 ValueExpr) = inr [lit "only SELECT query is supported"].
Proof. intros low ord. repeat apply conj; vm_compute; reflexivity. Qed.
End Examples.
Print Assumptions mysql_scopes_refused_with.
Print Assumptions mysql_names_refused_with.
