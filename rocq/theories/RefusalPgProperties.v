(** C124: a statement is refused with words that are true of it (PostgreSQL, Hasura). *)
From Coq Require Import String List NArith Bool Lia Arith.
From Verif Require Import Base Dec IndexText IndexBuild TableFields Existing PgAst PgCollect PgSpec PgWalkSpec PgProofs PgWalkProofs RefusalPgSpec.
From Verif Require MysqlCollect PgProperties.
Import ListNotations.
Local Open Scope string_scope.
Local Open Scope list_scope.

Lemma odd_subquery_said : forall q, (forall id w b o l, q <> ParenSelect (Select id w b o l)) -> odd_subquery q (err_subquery q).
Proof. intros q H. destruct q; try (apply os_unknown; [exact H|exact I]); try apply os_select; try apply os_union; apply os_values. Qed.
Lemma new_info_said : forall prefix top q es name es' m, new_select_info prefix top q es = (name, es') -> es_last es' = Some m -> es_last es = Some m \/ odd_subquery q m.
Proof.
  intros prefix top q es name es' m H HM.
  assert (D : (exists id w b o l, q = ParenSelect (Select id w b o l)) \/ forall id w b o l, q <> ParenSelect (Select id w b o l)).
  { destruct q; try (right; discriminate). destruct q; try (right; discriminate). left. eauto 6. }
  destruct D as [(id & w & b & o & l & ->)|D]; cbn in H.
  - injection H as <- <-. now left.
  - right. assert (E : es' = fail (err_subquery q) es) by (destruct q; try (injection H as <- <-; reflexivity); destruct q; try (injection H as <- <-; reflexivity); now elim (D id q1 q2 q3 q4)).
    rewrite E in HM. cbn in HM. injection HM as <-. now apply odd_subquery_said.
Qed.

Section Pg.
Context (norm : gostring -> gostring) (target : gostring).
Notation collect_expr := (collect_expr norm target).
Notation odd_expression := (odd_expression target).
Notation odd_reference := (odd_reference norm target).
Lemma offence_said : forall top ty e es r m, offends target e -> collect_expr top ty e es = Ok r -> es_last (snd r) = Some m -> odd_expression e m.
Proof.
  intros top ty e es r m HO H HM. destruct e; try (elim HO; fail);
    try (cbn in H; injection H as <-; cbn in HM; injection HM as <-; apply odd_other; right; exact I).
  - destruct t; try (elim HO; fail); cbn in H; injection H as <-; cbn in HM; injection HM as <-; try constructor. now left.
  - destruct e; try (elim HO; fail); cbn in H; injection H as <-; cbn in HM; injection HM as <-; apply odd_other; right; exact I.
  - destruct e; try (elim HO; fail). cbn in HO. pose proof (proj2 (foreign_spec norm target _ _) HO) as K. cbn [PgCollect.collect_expr] in H. rewrite K in H. injection H as <-. cbn in HM. injection HM as <-.
    apply (odd_tuple target _ star parts []); [left; reflexivity|exact HO].
  - destruct e; try (elim HO; fail). cbn in HO. pose proof (proj2 (foreign_spec norm target _ _) HO) as K. cbn [PgCollect.collect_expr] in H. rewrite K in H. injection H as <-. cbn in HM. injection HM as <-.
    eapply odd_tuple; [right; reflexivity|exact HO].
  - cbn in HO. pose proof (proj2 (foreign_spec norm target _ _) HO) as K. cbn [PgCollect.collect_expr] in H. rewrite K in H. injection H as <-. cbn in HM. injection HM as <-. now apply odd_name.
  - cbn in HO. pose proof (proj2 (foreign_spec norm target _ _) HO) as K. cbn [PgCollect.collect_expr] in H. rewrite K in H. injection H as <-. cbn in HM. injection HM as <-. apply (odd_resolved target _ parts []); [left; reflexivity|exact HO].
  - cbn in HO. pose proof (proj2 (foreign_spec norm target _ _) HO) as K. cbn [PgCollect.collect_expr] in H. rewrite K in H. injection H as <-. cbn in HM. injection HM as <-. eapply odd_resolved; [right; reflexivity|exact HO].
  - cbn [PgCollect.collect_expr] in H. destruct (new_select_info (lit "field") top e es) as [name es'] eqn:E. injection H as <-. cbn [snd] in HM.
    assert (D : forall id w b o l, e <> ParenSelect (Select id w b o l)) by (intros i w b o l ->; exact HO).
    apply odd_field. assert (E' : es' = fail (err_subquery e) es) by (clear HO HM; cbn in E; destruct e; try (injection E as <- <-; reflexivity); destruct e; try (injection E as <- <-; reflexivity); now elim (D id0 e1 e2 e3 e4)).
    rewrite E' in HM. cbn in HM. injection HM as <-. now apply odd_subquery_said.
Qed.
Lemma half_frame_fails : forall top ty e es r, half_frame e -> collect_expr top ty e es <> Ok r.
Proof.
  intros top ty e es r H K. destruct e; try (elim H; fail). rewrite collect_func in K.
  destruct (collect_all norm target top ty _ es) as [r1| |]; try discriminate. cbn [obind] in K.
  destruct (collect_expr top ty e2 (snd r1)) as [r2| |]; try discriminate. cbn [obind] in K.
  assert (W : collect_window norm target top ty e3 (snd r2) <> Ok r -> True) by auto. clear W.
  destruct (collect_window norm target top ty e3 (snd r2)) as [r3| |] eqn:E; try discriminate. clear K.
  destruct e3; try (elim H; fail). cbn [collect_window] in E.
  destruct (collect_all norm target top ty (items_of e3_1) (snd r2)) as [q1| |]; try discriminate. cbn [obind] in E.
  destruct (collect_all norm target top ty (order_exprs order0) (snd q1)) as [q2| |]; try discriminate. cbn [obind] in E.
  destruct (collect_frame norm target top ty e3_2 (snd q2)) as [q3| |] eqn:F; try discriminate. clear E.
  destruct e3_2; try (elim H; fail); try discriminate F. destruct e3_2_1; try discriminate F. destruct e3_2_2; try (elim H; fail); cbn [collect_frame] in F;
    destruct (collect_expr top ty e3_2_1 (snd q2)); discriminate F.
Qed.
Lemma collect_told : forall e top ty es r m, collect_expr top ty e es = Ok r -> es_last (snd r) = Some m ->
    es_last es = Some m \/ exists x, part e x /\ odd_expression x m.
Proof.
  intros e. induction e as [e IH] using operand_ind. intros top ty es r m H HM.
  assert (HL : forall l es r, (forall x, In x l -> In x (operands e)) -> collect_all norm target top ty l es = Ok r -> es_last (snd r) = Some m ->
     es_last es = Some m \/ exists k x, In k (operands e) /\ part k x /\ odd_expression x m).
  { induction l as [|x l IHl]; intros s q Hl HA HQ; cbn [collect_all] in HA; [injection HA as <-; now left|].
    destruct (collect_expr top ty x s) as [r1| |] eqn:E1; try discriminate. cbn [obind] in HA.
    destruct (collect_all norm target top ty l (snd r1)) as [r2| |] eqn:E2; try discriminate. cbn [obind] in HA. injection HA as <-. cbn [snd] in HQ.
    destruct (IHl (snd r1) r2 (fun y Hy => Hl y (or_intror Hy)) E2 HQ) as [K|K]; [|now right].
    destruct (IH x (Hl x (or_introl eq_refl)) top ty s r1 m E1 K) as [K'|(y & K1 & K2)]; [now left|]. right. exists x, y. split; [apply Hl; now left|auto]. }
  destruct (offends_dec norm target e) as [HO|HO]; [right; exists e; split; [constructor|]; now apply (offence_said top ty e es r)|].
  destruct (half_frame_dec e) as [HF|HF]; [elim (half_frame_fails top ty e es r HF H)|].
  destruct (leaf e) as [l|] eqn:EL.
  - rewrite (collect_leaf norm target top ty e l es EL HO) in H. injection H as <-. cbn [snd] in HM. rewrite regs_last in HM. now left.
  - rewrite (collect_inner norm target top ty e es EL HO HF) in H. destruct (HL _ es r (fun x K => K) H HM) as [K|(k & x & K1 & K2 & K3)]; [now left|].
    right. exists x. split; [econstructor; eauto|exact K3].
Qed.

(** What a SELECT may be said of *)
Section Select.
Context (P : gostring -> Prop).
Definition pending (es : estate) : Prop := forall m, es_last es = Some m -> P m.
Definition all_said (errs : list gostring) : Prop := forall m, In m errs -> P m.
Definition good (e : node) : Prop := forall x m, part e x -> odd_expression x m -> P m.
Lemma said_more : forall errs m, all_said errs -> P m -> all_said (errs ++ [m]).
Proof. intros errs m H1 H2 x K. apply in_app_or in K as [K|[<-|[]]]; auto. Qed.
Lemma no_error_pending : forall es, pending (no_error es).
Proof. intros es m H. discriminate. Qed.
Lemma fail_pending : forall es m, P m -> pending (fail m es).
Proof. intros es m H x K. cbn in K. injection K as <-. exact H. Qed.
Lemma collect_pending : forall e top ty es r, good e -> pending es -> collect_expr top ty e es = Ok r -> pending (snd r).
Proof. intros e top ty es r HG HP H m K. destruct (collect_told _ _ _ _ _ _ H K) as [K'|(x & K1 & K2)]; [now apply HP|]. now apply (HG x). Qed.
Lemma expr_field_said : forall top ty a e errs es r, good e -> pending es -> all_said errs -> expr_field norm target top ty a e errs es = Ok r ->
    all_said (snd (fst r)) /\ pending (snd r).
Proof.
  intros top ty a e errs es r HG HP HE H. unfold expr_field in H. destruct (collect_expr top ty e es) as [q| |] eqn:E; try discriminate. cbn [obind] in H. injection H as <-.
  pose proof (collect_pending e top ty es q HG HP E) as K. unfold pending in K. destruct (es_last (snd q)) as [m|] eqn:EQ; cbn [fst snd].
  - split; [apply said_more; auto|apply no_error_pending].
  - split; [exact HE|]. intros m K'. congruence.
Qed.
Lemma expr_fields_said : forall top get l errs es r, (forall x, In x l -> good (snd (get x))) -> pending es -> all_said errs -> expr_fields norm target top get l errs es = Ok r ->
    all_said (snd (fst r)) /\ pending (snd r).
Proof.
  intros top get. induction l as [|x l IH]; intros errs es r HG HP HE H; cbn [expr_fields] in H; [injection H as <-; split; assumption|].
  destruct (expr_field norm target top FReference (fst (get x)) (snd (get x)) errs es) as [r1| |] eqn:E1; try discriminate. cbn [obind] in H.
  destruct (expr_field_said _ _ _ _ _ _ _ (HG x (or_introl eq_refl)) HP HE E1) as [A B]. destruct r1 as [[f e1] s1]. cbn [fst snd] in A, B.
  destruct (expr_fields norm target top get l e1 s1) as [r2| |] eqn:E2; try discriminate. cbn [obind] in H.
  destruct (IH e1 s1 r2 (fun y Hy => HG y (or_intror Hy)) B A E2) as [A' B']. destruct r2 as [[fs e2] s2]. injection H as <-. split; assumption.
Qed.
Lemma rows_said : forall top items es r, (forall x, In x items -> good x) -> pending es -> row_fields norm target top items es = Ok r -> pending (snd r).
Proof.
  intros top. induction items as [|x l IH]; intros es r HG HP H; cbn [row_fields] in H; [injection H as <-; exact HP|].
  destruct (collect_expr top FReference x es) as [r1| |] eqn:E1; try discriminate. cbn [obind] in H.
  destruct (row_fields norm target top l (snd r1)) as [r2| |] eqn:E2; try discriminate. cbn [obind] in H. injection H as <-. cbn [snd].
  apply (IH (snd r1) r2); [intros y Hy; apply HG; now right| |exact E2]. apply (collect_pending x top FReference es r1); [apply HG; now left|exact HP|exact E1].
Qed.
Definition join_tables (top : option nat) (l r c : node) (es : estate) : outcome (list table * list field * estate) :=
  do r1 <- collect_tables norm target top l es;
  do r2 <- collect_tables norm target top r (snd r1);
  let ts := fst (fst r1) ++ fst (fst r2) in
  let fs := snd (fst r1) ++ snd (fst r2) in
  match c with
  | Nil => Ok (ts, fs, snd r2)
  | Natural => Ok (ts, fs, fail err_natural (snd r2))
  | On x => do r3 <- collect_expr top FCondition x (snd r2); Ok (ts, fs ++ [mk_field [] (fst r3)], snd r3)
  | UsingCols cols => Ok (ts, fs ++ map (fun c => mk_field [] [mk_fcol [] (norm c) FCondition]) cols, snd r2)
  | _ => Ok (ts, fs, fail err_join (snd r2))
  end.
Lemma collect_join : forall top l r c es, collect_tables norm target top (Join l r c) es = join_tables top l r c es.
Proof. reflexivity. Qed.
Lemma collect_join_as : forall top l r c a lat es, collect_tables norm target top (Aliased (Join l r c) a lat) es = join_tables top l r c es.
Proof. reflexivity. Qed.
Lemma tables_said : forall top n es r, (forall x m, joined n x -> odd_reference x m -> P m) -> (forall e, from_expression n e -> good e) -> pending es ->
    collect_tables norm target top n es = Ok r -> pending (snd r).
Proof.
  intros top. induction n as [n IH] using node_ind'. rewrite Forall_forall in IH. intros es r HR HG HP H.
  assert (HK : forall m es', odd_reference n m -> pending (fail m es')) by (intros m es' K; apply fail_pending, (HR n m); [constructor|exact K]).
  assert (FL : forall l r c e, from_expression l e -> from_expression (Join l r c) e) by (intros l0 r0 c0 e [? ? K|? K1 K2|? ? ? K1 K2]; [eapply fe_on|eapply fe_rows|eapply fe_named]; eauto using j_left).
  assert (FR : forall l r c e, from_expression r e -> from_expression (Join l r c) e) by (intros l0 r0 c0 e [? ? K|? K1 K2|? ? ? K1 K2]; [eapply fe_on|eapply fe_rows|eapply fe_named]; eauto using j_right).
  assert (FA : forall l r c a lat e, from_expression (Join l r c) e -> from_expression (Aliased (Join l r c) a lat) e)
    by (intros l0 r0 c0 a lat e [? ? K|? K1 K2|? ? ? K1 K2]; [eapply fe_on|eapply fe_rows|eapply fe_named]; eauto using j_named).
  destruct n; try (cbn [collect_tables] in H; injection H as <-; cbn [snd]; try exact HP; apply HK; first [apply odd_place; exact I | apply (odd_source norm target [] false); left; reflexivity]); try discriminate H.
  - (* Aliased *)
    destruct n; try (cbn [collect_tables] in H; injection H as <-; exact HP).
    + cbn [collect_tables] in H. destruct (new_select_info (lit "select") None n es) as [name es'] eqn:E. injection H as <-. cbn [snd]. intros m K.
      destruct (new_info_said _ _ _ _ _ _ _ E K) as [K'|K']; [now apply HP|]. apply (HR _ m (j_self _)). now apply odd_derived.
    + cbn [collect_tables] in H. injection H as <-. apply HK. apply odd_nested.
    + discriminate H.
    + rewrite collect_join_as, <- collect_join in H. apply (IH _ (or_introl eq_refl) es r); [|intros e K; now apply HG, FA|exact HP|exact H].
      intros x m K. apply HR. now apply j_named.
    + cbn [collect_tables] in H. destruct (row_fields norm target top items es) as [q| |] eqn:E; try discriminate. cbn [obind] in H. injection H as <-. cbn [snd].
      apply (rows_said top items es q); [|exact HP|exact E]. intros x K. apply HG. eapply fe_named; [constructor|exact K].
    + cbn [collect_tables] in H. destruct (schema_specified_name norm target catalog schema) eqn:E; injection H as <-; [|exact HP]. apply HK. apply odd_table.
      unfold schema_specified_name in E. destruct catalog; [|left; discriminate]. right. cbv zeta in E. destruct (norm schema) eqn:EN; [discriminate|]. split; [discriminate|].
      intros K. rewrite <- K in E. apply negb_true_iff in E. rewrite (proj2 (seqb_eq _ _) eq_refl) in E. discriminate.
    + cbn [collect_tables] in H. destruct (schema_specified target parts 1) eqn:E; injection H as <-; [|exact HP]. apply HK. apply odd_object. now apply (foreign_spec norm target).
    + cbn [collect_tables] in H. injection H as <-. apply HK. eapply odd_source. right. reflexivity.
  - (* Join *)
    rewrite collect_join in H. unfold join_tables in H.
    destruct (collect_tables norm target top n1 es) as [r1| |] eqn:E1; try discriminate. cbn [obind] in H.
    assert (P1 : pending (snd r1)).
    { apply (IH n1 (or_introl eq_refl) es r1); [intros x m K; apply HR; now apply j_left|intros e K; apply HG; now apply FL|exact HP|exact E1]. }
    destruct (collect_tables norm target top n2 (snd r1)) as [r2| |] eqn:E2; try discriminate. cbn [obind] in H.
    assert (P2 : pending (snd r2)).
    { apply (IH n2 (or_intror (or_introl eq_refl)) (snd r1) r2); [intros x m K; apply HR; now apply j_right|intros e K; apply HG; now apply FR|exact P1|exact E2]. }
    cbv zeta in H.
    destruct n3; try (injection H as <-; cbn [snd]; first [exact P2|apply HK; apply odd_natural|apply HK; apply odd_join; discriminate]).
    destruct (collect_expr top FCondition n3 (snd r2)) as [r3| |] eqn:E3; try discriminate. cbn [obind] in H. injection H as <-. cbn [snd].
    apply (collect_pending n3 top FCondition (snd r2) r3); [|exact P2|exact E3]. apply HG. eapply fe_on. constructor.
  - (* RowsFrom *)
    cbn [collect_tables] in H. destruct (row_fields norm target top items es) as [q| |] eqn:E; try discriminate. cbn [obind] in H. injection H as <-. cbn [snd].
    apply (rows_said top items es q); [|exact HP|exact E]. intros x K. apply HG. eapply fe_rows; [constructor|exact K].
Qed.
Lemma from_said : forall top l tables errs es r, (forall f, In f l -> (forall x m, joined f x -> odd_reference x m -> P m) /\ forall e, from_expression f e -> good e) ->
    pending es -> all_said errs -> PgCollect.from_items norm target top l tables errs es = Ok r -> all_said (snd (fst r)) /\ pending (snd r).
Proof.
  intros top. induction l as [|x l IH]; intros tables errs es r HG HP HE H; cbn [PgCollect.from_items] in H; [injection H as <-; split; assumption|].
  destruct (collect_tables norm target top x es) as [r1| |] eqn:E1; try discriminate. cbn [obind] in H.
  destruct (HG x (or_introl eq_refl)) as [G1 G2]. pose proof (tables_said top x es r1 G1 G2 HP E1) as P1. destruct r1 as [[ts fs] s1]. cbn [snd] in P1.
  assert (A : all_said (match es_last s1 with Some m => errs ++ [m] | None => errs end)).
  { unfold pending in P1. destruct (es_last s1) as [m|]; [apply said_more; auto|exact HE]. }
  cbv zeta in H. destruct (PgCollect.from_items norm target top l ts _ (no_error s1)) as [r2| |] eqn:E2; try discriminate. cbn [obind] in H.
  destruct (IH _ _ _ r2 (fun y Hy => HG y (or_intror Hy)) (no_error_pending s1) A E2) as [A' B']. destruct r2 as [[[ts2 fs2] e2] s2]. injection H as <-. split; assumption.
Qed.
Lemma opt_field_said : forall top ty w errs es r, (forall e, w = Where e -> good e) -> pending es -> all_said errs -> opt_field norm target top ty w errs es = Ok r ->
    all_said (snd (fst r)) /\ pending (snd r).
Proof.
  intros top ty w errs es r HG HP HE H. destruct w; try (injection H as <-; split; assumption). cbn [opt_field] in H. apply (expr_field_said top ty [] w errs es r); auto.
Qed.
Lemma select_said : forall top id w xs from wh hv d g win o l errs es r,
    let s := Select id w (SelectClause xs from wh hv d g win) o l in
    (forall m, odd_select s m -> P m) -> (forall e, clause s e -> good e) -> (forall x m, from_place s x -> odd_reference x m -> P m) ->
    pending es -> all_said errs -> collect_select norm target top w (SelectClause xs from wh hv d g win) o l errs es = Ok r ->
    all_said (snd (fst r)) /\ pending (snd r).
Proof.
  intros top id w xs from wh hv d g win o l errs es r s HS HC HF HP HE H. cbn [collect_select] in H.
  assert (ML : forall n, list_of n = members n) by (intros []; reflexivity). rewrite (ML xs), (ML from), (ML o) in H.
  assert (GN : good Nil) by (intros x m K HO; inversion K; subst; [inversion HO; subst; [destruct H0 as [H0|[]]; discriminate|destruct H0; discriminate|destruct H0; discriminate]|contradiction]).
  destruct (expr_fields norm target top get_select_expr (members xs) errs es) as [r1| |] eqn:E1; try discriminate. cbn [obind] in H.
  destruct (expr_fields_said _ _ _ _ _ _ (fun x (K : In x (members xs)) => HC (snd (get_select_expr x)) (or_introl (ex_intro _ x (conj K
     (match x as y return (y = snd (get_select_expr y) \/ exists as_, y = SelectExpr (snd (get_select_expr y)) as_) with SelectExpr e a => or_intror (ex_intro _ a eq_refl) | _ => or_introl eq_refl end))))) HP HE E1) as [A1 B1].
  destruct r1 as [[f1 e1] s1]. cbn [fst snd] in A1, B1.
  destruct (PgCollect.from_items norm target top (members from) [] e1 s1) as [r2| |] eqn:E2; try discriminate. cbn [obind] in H.
  destruct (from_said top (members from) [] e1 s1 r2) as [A2 B2]; [|exact B1|exact A1|exact E2|].
  { intros f K. split; [intros x m K1; apply HF; exists f; auto|]. intros e K1. apply HC. right. left. exists f. auto. }
  destruct r2 as [[[ts f2] e2] s2]. cbn [fst snd] in A2, B2.
  destruct (opt_field norm target top FCondition wh e2 s2) as [r3| |] eqn:E3; try discriminate. cbn [obind] in H.
  destruct (opt_field_said top FCondition wh e2 s2 r3) as [A3 B3]; [intros e K; apply HC; right; right; now left|exact B2|exact A2|exact E3|].
  destruct r3 as [[f3 e3] s3]. cbn [fst snd] in A3, B3.
  destruct (expr_fields norm target top get_expr g e3 s3) as [r4| |] eqn:E4; try discriminate. cbn [obind] in H.
  destruct (expr_fields_said top get_expr g e3 s3 r4) as [A4 B4]; [intros e K; apply HC; do 3 right; now left|exact B3|exact A3|exact E4|].
  destruct r4 as [[f4 e4] s4]. cbn [fst snd] in A4, B4.
  destruct (opt_field norm target top FReference hv e4 s4) as [r5| |] eqn:E5; try discriminate. cbn [obind] in H.
  destruct (opt_field_said top FReference hv e4 s4 r5) as [A5 B5]; [intros e K; apply HC; do 4 right; now left|exact B4|exact A4|exact E5|].
  destruct r5 as [[f5 e5] s5]. cbn [fst snd] in A5, B5. cbv zeta in H.
  assert (A5' : all_said (if win then e5 ++ [err_window] else e5)).
  { subst s. destruct win; [|exact A5]. apply said_more; [exact A5|]. apply HS. apply odd_window. }
  destruct (expr_fields norm target top get_order (members o) (if win then e5 ++ [err_window] else e5) s5) as [r6| |] eqn:E6; try discriminate. cbn [obind] in H.
  destruct (expr_fields_said top get_order (members o) (if win then e5 ++ [err_window] else e5) s5 r6) as [A6 B6]; [|exact B5|exact A5'|exact E6|].
  { intros x K. destruct x; try exact GN. apply HC. do 5 right. left. exists x2. exact K. }
  destruct r6 as [[f6 e6] s6]. cbn [fst snd] in A6, B6.
  cbv beta iota in H. match type of H with obind ?x _ = _ => destruct x as [r7| |] eqn:E7; try discriminate H end. cbn [obind] in H.
  assert (C7 : all_said (snd (fst r7)) /\ pending (snd r7)).
  { subst s. assert (D : (exists l_1 l_2, l = Limit l_1 l_2) \/ Ok ([], e6, s6) = Ok r7) by (clear - E7; destruct l; try (right; exact E7); left; eauto).
    destruct D as [(l_1 & l_2 & ->)|D]; [|injection D as <-; split; assumption].
    destruct (expr_field norm target top FReference [] l_1 e6 s6) as [ra| |] eqn:Ea; try discriminate. cbn [obind] in E7.
    destruct (expr_field_said top FReference [] l_1 e6 s6 ra) as [Aa Ba]; [apply HC; do 6 right; eauto|exact B6|exact A6|exact Ea|].
    destruct ra as [[fa ea] sa]. cbn [fst snd] in Aa, Ba.
    destruct (expr_field norm target top FReference [] l_2 ea sa) as [rb| |] eqn:Eb; try discriminate. cbn [obind] in E7.
    destruct (expr_field_said top FReference [] l_2 ea sa rb) as [Ab Bb]; [apply HC; do 6 right; eauto|exact Ba|exact Aa|exact Eb|].
    destruct rb as [[fb eb] sb]. injection E7 as <-. split; assumption. }
  destruct r7 as [[f7 e7] s7]. cbn [fst snd] in C7. destruct C7 as [A7 B7]. injection H as <-. cbn [fst snd]. split; [exact A7|].
  subst s. destruct w; try exact B7; apply fail_pending; apply HS; apply odd_with; discriminate.
Qed.
End Select.

Lemma reached_trans : forall a b c, reached a b -> reached b c -> reached a c.
Proof. intros a b c H. induction H; intros K; [exact K|]. econstructor; eauto. Qed.
Lemma enter_said : forall root n c c', reached root n -> all_said (pg_complaint norm target root) (c_errors c) -> pending (pg_complaint norm target root) (c_es c) ->
    enter_scope norm target n c = Ok c' -> all_said (pg_complaint norm target root) (c_errors c') /\ pending (pg_complaint norm target root) (c_es c').
Proof.
  intros root n c c' HN HE HP H. unfold enter_scope in H.
  assert (K : forall c1 here sel, new_scope n c = Some (c1, here, sel) -> c_errors c1 = c_errors c /\ c_es c1 = c_es c /\ reached root sel).
  { intros c1 here sel K. destruct n; try discriminate K; cbn [new_scope] in K.
    - destruct n; try discriminate K. destruct n; try discriminate K. destruct (fget (es_found (c_es c)) id0) as [[m [p|]]|]; try discriminate K. injection K as <- <- <-.
      split; [reflexivity|]. split; [reflexivity|]. apply (reached_trans _ _ _ HN).
      apply (reached_in _ (ParenSelect (Select id0 n1 n2 n3 n4))); [intros []|left; reflexivity|discriminate|]. apply (reached_in _ (Select id0 n1 n2 n3 n4)); [intros []|left; reflexivity|discriminate|constructor].
    - destruct (fget (es_found (c_es c)) id) as [[m [p|]]|]; try discriminate K; injection K as <- <- <-; auto. }
  destruct (new_scope n c) as [[[c1 here] sel]|]; [|injection H as <-; split; assumption].
  destruct (K c1 here sel eq_refl) as (K1 & K2 & K3). rewrite <- K1 in HE. rewrite <- K2 in HP.
  destruct sel; try (injection H as <-; split; assumption).
  destruct sel2; try (injection H as <-; split; assumption).
  destruct (addr_of n) as [a|]; [|injection H as <-; split; assumption].
  destruct (collect_select norm target (Some here) sel1 _ sel3 sel4 (c_errors c1) (c_es c1)) as [r| |] eqn:E; try discriminate. cbn [obind] in H.
  destruct (select_said (pg_complaint norm target root) (Some here) id sel1 sel2_1 sel2_2 sel2_3 sel2_4 distinct_on group_by window sel3 sel4 (c_errors c1) (c_es c1) r) as [A B];
    [intros m X; eapply pc_select; eauto|intros e X x m X1 X2; eapply pc_expression; eauto|intros x m X1 X2; eapply pc_from; eauto|exact HP|exact HE|exact E|].
  destruct r as [[[ts fs] errs] es]. cbn [fst snd] in A, B. injection H as <-. split; assumption.
Qed.
Lemma run_said : forall root t c c', (forall m, In m (entered t) -> m = Nil \/ reached root m) ->
    all_said (pg_complaint norm target root) (c_errors c) -> pending (pg_complaint norm target root) (c_es c) ->
    run (enter_scope norm target) leave_scope t c = Ok c' -> all_said (pg_complaint norm target root) (c_errors c').
Proof.
  intros root. induction t as [|[n|n] t IH]; intros c c' HT HE HP H; cbn [run] in H.
  - injection H as <-. exact HE.
  - destruct (enter_scope norm target n c) as [c1| |] eqn:E; try discriminate. cbn [obind] in H. destruct (HT n (or_introl eq_refl)) as [->|HN].
    + injection E as <-. apply (IH c c'); auto. intros m K. apply HT. now right.
    + destruct (enter_said root n c c1 HN HE HP E) as [A B]. apply (IH c1 c'); auto. intros m K. apply HT. now right.
  - destruct (leave_scope n c) as [c1| |] eqn:E; try discriminate. cbn [obind] in H.
    assert (K : c_errors c1 = c_errors c /\ c_es c1 = c_es c).
    { unfold leave_scope in E. destruct (c_stack c) as [|[a i] st]; [discriminate|]. destruct (addr_of n) as [b|]; [destruct (addr_eqb a b)|]; injection E as <-; auto. }
    destruct K as [K1 K2]. rewrite <- K1 in HE. rewrite <- K2 in HP. now apply (IH c1 c').
Qed.
Lemma unknown_said : forall root us errs, (forall m, In m us <-> reached root m /\ unsupported_kind m) -> map (fun _ : node => err_unknown_node) us = errs ->
    forall m, In m errs -> odd_statement root m.
Proof. intros root us errs H <- m K. apply in_map_iff in K as (n & <- & K). apply H in K as [K1 K2]. now apply (odd_node root n). Qed.
(** A node the collector does not know hides everything else that could be said. *)
Lemma unknown_first : forall root us errs, (forall m, In m us <-> reached root m /\ unsupported_kind m) -> map (fun _ : node => err_unknown_node) us = errs ->
    forall n m, reached root n -> unsupported_kind n -> In m errs -> m = of_string "unsupported node found".
Proof. intros root us errs H <- n m _ _ K. apply in_map_iff in K as (x & <- & _). reflexivity. Qed.
Theorem pg_scopes_refused_with : forall root errs, collect_scopes norm target root = Ok (inr errs) ->
    errs <> [] /\ (forall m, In m errs -> pg_complaint norm target root m) /\
    (forall id w b o l n m, root = Select id w b o l -> reached root n -> unsupported_kind n -> In m errs -> m = of_string "unsupported node found").
Proof.
  intros root errs H. assert (D : (forall id w b o l, root <> Select id w b o l) \/ exists id w b o l, root = Select id w b o l) by (destruct root; (right; now eauto 6) || (left; discriminate)).
  destruct D as [D|(id & w & b & o & l & D)].
  - assert (H' : Ok (inr [err_only_select]) = Ok (inr errs) :> outcome (list scope + list gostring)) by (destruct root; try exact H; now elim (D id root1 root2 root3 root4)). injection H' as <-. split; [discriminate|].
    split; [|intros id w b o l n m K; elim (D id w b o l K)]. intros m [<-|[]]. apply pc_root. now apply odd_root.
  - destruct (walk_events root) as (t & us & _ & HW & HR & HU & _ & _). assert (NN : root <> Nil) by (rewrite D; discriminate). specialize (HR NN). specialize (HU NN).
    unfold collect_scopes in H. rewrite D in H. rewrite <- D in H. rewrite HW in H.
    destruct (run (enter_scope norm target) leave_scope t (mk_coll [] [] [] [] (mk_es None [] []))) as [c| |] eqn:E; try discriminate. cbn [obind] in H.
    assert (A : all_said (pg_complaint norm target root) (c_errors c)).
    { apply (run_said root t (mk_coll [] [] [] [] (mk_es None [] [])) c); [|intros m []|intros m K; discriminate|exact E].
      intros m K. destruct m; try (now left); right; apply HR; split; try discriminate; exact K. }
    cbn [app] in H. pose proof (unknown_said root us _ HU eq_refl) as B. pose proof (unknown_first root us _ HU eq_refl) as F.
    assert (U : forall n, reached root n -> unsupported_kind n -> map (fun _ : node => err_unknown_node) us <> []) by (intros n K1 K2 K3; apply map_eq_nil in K3 as ->; apply (proj2 (HU n)); auto).
    destruct (map (fun _ : node => err_unknown_node) us) as [|m0 l0].
    + destruct (c_errors c) as [|m1 l1]; [discriminate|]. injection H as <-. split; [discriminate|]. split; [exact A|]. intros i2 w2 b2 o2 l2 n m _ K1 K2. now elim (U n K1 K2).
    + injection H as <-. split; [discriminate|]. split; [intros m K; apply pc_root; now apply B|]. intros i2 w2 b2 o2 l2 n m _. apply F.
Qed.
End Pg.
Lemma table_run_said : forall norm root t c c', (forall m, In m (entered t) -> m = Nil \/ reached root m) ->
    all_said (pg_name_complaint root) (tc_errors c) -> run (enter_table norm) leave_table t c = Ok c' -> all_said (pg_name_complaint root) (tc_errors c').
Proof.
  intros norm root. induction t as [|[n|n] t IH]; intros c c' HT HE H; cbn [run] in H.
  - injection H as <-. exact HE.
  - cbn [enter_table obind] in H. refine (IH _ c' (fun m K => HT m (or_intror K)) _ H). destruct (HT n (or_introl eq_refl)) as [->|HN]; [exact HE|].
    destruct n; try exact HE; try (destruct n1; exact HE). destruct n; try exact HE. unfold add_table.
    destruct ((negb (seqb schema (lit "public")) && negb (seqb schema [])) || negb (seqb catalog []))%bool eqn:E; [|destruct (is_cte c (norm name)); exact HE].
    cbn [tc_errors]. apply said_more; [exact HE|]. unfold err_explicit. eapply pn_table; [exact HN|].
    apply orb_true_iff in E as [E|E]; [right|left; intros ->; discriminate]. apply andb_true_iff in E as [E1 E2]. split; [intros ->; discriminate|].
    intros ->. change (of_string "public") with (lit "public") in E1. rewrite (proj2 (seqb_eq _ _) eq_refl) in E1. discriminate.
  - cbn [leave_table obind] in H. refine (IH _ c' HT _ H). destruct n; try exact HE. destruct n1; exact HE.
Qed.
Theorem pg_names_refused_with : forall norm ord root errs, collect_table_names norm ord root = Ok (inr errs) ->
    errs <> [] /\ (forall m, In m errs -> pg_name_complaint root m) /\
    (forall id w b o l n m, root = Select id w b o l -> reached root n -> unsupported_kind n -> In m errs -> m = of_string "unsupported node found").
Proof.
  intros norm ord root errs H. assert (D : (forall id w b o l, root <> Select id w b o l) \/ exists id w b o l, root = Select id w b o l) by (destruct root; (right; now eauto 6) || (left; discriminate)).
  destruct D as [D|(id & w & b & o & l & D)].
  - assert (H' : Ok (inr [err_only_select]) = Ok (inr errs) :> outcome (list gostring + list gostring)) by (destruct root; try exact H; now elim (D id root1 root2 root3 root4)). injection H' as <-. split; [discriminate|].
    split; [|intros id w b o l n m K; elim (D id w b o l K)]. intros m [<-|[]]. apply pn_root. now apply odd_root.
  - destruct (walk_events root) as (t & us & _ & HW & HR & HU & _ & _). assert (NN : root <> Nil) by (rewrite D; discriminate). specialize (HR NN). specialize (HU NN).
    unfold collect_table_names in H. rewrite D in H. rewrite <- D in H. rewrite HW in H.
    destruct (run (enter_table norm) leave_table t (mk_tc [] [] [])) as [c| |] eqn:E; try discriminate. cbn [obind] in H.
    assert (A : all_said (pg_name_complaint root) (tc_errors c)).
    { apply (table_run_said norm root t (mk_tc [] [] []) c); [|intros m []|exact E].
      intros m K. destruct m; try (now left); right; apply HR; split; try discriminate; exact K. }
    cbn [app] in H. pose proof (unknown_said root us _ HU eq_refl) as B. pose proof (unknown_first root us _ HU eq_refl) as F.
    assert (U : forall n, reached root n -> unsupported_kind n -> map (fun _ : node => err_unknown_node) us <> []) by (intros n K1 K2 K3; apply map_eq_nil in K3 as ->; apply (proj2 (HU n)); auto).
    destruct (map (fun _ : node => err_unknown_node) us) as [|m0 l0].
    + destruct (tc_errors c) as [|m1 l1]; [discriminate|]. injection H as <-. split; [discriminate|]. split; [exact A|]. intros i2 w2 b2 o2 l2 n m _ K1 K2. now elim (U n K1 K2).
    + injection H as <-. split; [discriminate|]. split; [intros m K; apply pn_root; now apply B|]. intros i2 w2 b2 o2 l2 n m _. apply F.
Qed.
Section Examples.
Local Definition idn : gostring -> gostring := fun s => s.
Local Definition users_ : node := Aliased (TableName [] [] (lit "users")) [] false.
Local Definition one (x f wh : node) : node := Select 0 Nil (SelectClause (SelectExprs [SelectExpr x []]) (From Nil [f]) wh Nil [] [] false) Nil Nil.
Local Definition id_ : node := Name false [lit "id"].
(** A MAXVALUE, which the walker does not know; one in OFFSET, where the walker does not look; a column of another schema; a table of another schema; a NATURAL JOIN; a UNION as a
    table; a subquery without parentheses; a WINDOW and a WITH; something not a SELECT *)
Example pg_scopes_refused_with_ex : 
    collect_scopes idn (lit "public") (one id_ users_ (Where (E2 ComparisonExpr id_ (A0 PartitionMaxVal)))) = Ok (inr [lit "unsupported node found"]) /\
    collect_scopes idn (lit "public") (Select 0 Nil (SelectClause (SelectExprs [SelectExpr id_ []]) (From Nil [users_]) Nil Nil [] [] false) Nil (Limit Nil (A0 PartitionMaxVal)))
      = Ok (inr [lit "MAXVALUE is not expected"]) /\
    collect_scopes idn (lit "public") (one (Name false [lit "id"; lit "users"; lit "shop"]) users_ Nil) = Ok (inr [lit "schema or catalog/db specification is not supported"]) /\
    collect_scopes idn (lit "public") (one (TupleStar (Name false [lit "users"; lit "shop"])) users_ Nil) = Ok (inr [lit "schema or catalog/db specification at tuple `(Table).schema.col` is not expected"]) /\
    collect_scopes idn (lit "public") (one id_ (Aliased (TableName [] (lit "shop") (lit "users")) [] false) Nil) = Ok (inr [lit "schema or catalog/db specification is not supported"]) /\
    collect_scopes idn (lit "public") (one id_ (Join users_ users_ Natural) Nil) = Ok (inr [lit "unsupported node found"]) /\
    collect_scopes idn (lit "public") (one (Subquery 1 (Union (one id_ users_ Nil) (one id_ users_ Nil))) users_ Nil) = Ok (inr [lit "a subquery having union clause is unexpected"]) /\
    collect_scopes idn (lit "public") (A0 Const) = Ok (inr [lit "only SELECT query is supported"]).
Proof. repeat apply conj; vm_compute; reflexivity. Qed.
Example pg_names_refused_with_ex :
    collect_table_names idn (fun l => l) (one id_ (Aliased (TableName (lit "db") (lit "shop") (lit "users")) [] false) Nil)
      = Ok (inr [lit "not supporting query referencing schema or catalog explicitly: db.shop.users"]) /\
    collect_table_names idn (fun l => l) (one id_ users_ (Where OtherNode)) = Ok (inr [lit "unsupported node found"]) /\
    collect_table_names idn (fun l => l) (A0 Const) = Ok (inr [lit "only SELECT query is supported"]).
Proof. repeat apply conj; vm_compute; reflexivity. Qed.
End Examples.
Print Assumptions pg_scopes_refused_with.
Print Assumptions pg_names_refused_with.
