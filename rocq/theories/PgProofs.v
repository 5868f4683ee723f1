(** Proofs about the PostgreSQL collectors. *)
From Coq Require Import String List NArith Bool Lia Arith Permutation.
From Verif Require Import Base Dec IndexText IndexBuild TableFields PgAst PgCollect PgSpec.
Import ListNotations.

Lemma within_trans : forall a b c, within a b -> within b c -> within a c.
Proof. intros a b c H. induction H; auto. intros. econstructor; eauto. Qed.
Lemma node_sind : forall P : node -> Prop,
    (forall n, (forall k m, In k (children n) -> within k m -> P m) -> P n) -> forall n, P n.
Proof.
  intros P H n. assert (HW : forall n m, within n m -> P m).
  { clear n. apply (node_ind' (fun n => forall m, within n m -> P m)). intros n IH m Hm.
    rewrite Forall_forall in IH. inversion Hm; subst; [|eapply IH; eauto]. apply H. intros k m' Hk Hw. eapply IH; eauto. }
  apply (HW n). constructor.
Qed.
Definition below (n m : node) : Prop := exists k, In k (children n) /\ within k m.
Lemma below_child : forall n k, In k (children n) -> below n k.
Proof. intros n k H. exists k. split; auto. constructor. Qed.
Lemma below_trans : forall n k m, below n k -> below k m -> below n m.
Proof. intros n k m (a & H1 & H2) (b & H3 & H4). exists a. split; auto. eapply within_trans; eauto. econstructor; eauto. Qed.
Lemma below_within : forall n k m, below n k -> within k m -> below n m.
Proof. intros n k m (a & H1 & H2) H. exists a. split; auto. eapply within_trans; eauto. Qed.
Lemma within_below : forall n m, within n m -> m = n \/ below n m.
Proof. intros n m H. inversion H; subst; auto. right. exists k. auto. Qed.

Lemma order_exprs_below : forall l x, In x (order_exprs l) -> exists o, In o l /\ below o x.
Proof.
  intros l x H. apply in_flat_map in H. destruct H as (o & Ho & Hx). exists o. split; auto.
  destruct o; simpl in Hx; try tauto. destruct Hx as [->|[]]. apply below_child. simpl. auto.
Qed.
Lemma items_of_below : forall n x, In x (items_of n) -> below n x.
Proof. intros n x H. destruct n; simpl in H; try tauto. now apply below_child. Qed.
Lemma bound_offset_below : forall n x, In x (bound_offset n) -> below n x.
Proof. intros n x H. destruct n; simpl in H; try tauto. destruct H as [->|[]]. apply below_child. simpl. auto. Qed.
Lemma window_operands_below : forall w x, In x (window_operands w) -> below w x.
Proof.
  intros w x H. destruct w; simpl in H; try tauto. rename w1 into p, order into o, w2 into f.
  assert (HP : In x (items_of p ++ order_exprs o) -> below (WindowDef p o f) x).
  { rewrite in_app_iff. intros [HI|HI].
    - apply (below_trans _ p); [apply below_child; simpl; auto|now apply items_of_below].
    - apply order_exprs_below in HI. destruct HI as (y & Hy & HI). apply (below_trans _ y); auto. apply below_child. simpl. auto. }
  destruct f; auto. rewrite app_assoc, in_app_iff in H. destruct H as [H|H]; [auto|].
  apply (below_trans _ (WindowFrame f1 f2)); [apply below_child; simpl; auto|].
  rewrite in_app_iff in H. destruct H as [H|H]; apply bound_offset_below in H.
  - apply (below_trans _ f1); auto. apply below_child. simpl. auto.
  - apply (below_trans _ f2); auto. apply below_child. simpl. auto.
Qed.
Lemma operands_below : forall e k, In k (operands e) -> below e k.
Proof.
  intros e k H. destruct e; simpl in H; try tauto; try (apply below_child; simpl; tauto).
  - destruct e; simpl in H; try tauto. apply (below_trans _ (Exprs es)); apply below_child; simpl; auto.
  - apply below_child. simpl. rewrite in_app_iff in H. simpl in H. tauto.
  - rewrite in_app_iff in H. destruct H as [H|[H|H]].
    + apply filter_In in H. destruct H as [H _]. apply (below_trans _ e1); [apply below_child; simpl; auto|now apply items_of_below].
    + subst. apply below_child. simpl. auto.
    + rewrite in_app_iff in H. destruct H as [H|H].
      * apply (below_trans _ e3); [apply below_child; simpl; auto|now apply window_operands_below].
      * apply order_exprs_below in H. destruct H as (y & Hy & HI). apply (below_trans _ y); auto. apply below_child. simpl. auto.
Qed.

(** Induction over operands *)
Lemma operand_ind : forall P : node -> Prop, (forall e, (forall k, In k (operands e) -> P k) -> P e) -> forall e, P e.
Proof.
  intros P H. apply node_sind. intros n IH. apply H. intros k Hk. apply operands_below in Hk. destruct Hk as (a & H1 & H2). eauto.
Qed.
Lemma occurs_all_In : forall l ms, occurs_all l ms -> forall m, In m ms -> exists x a, In x l /\ occurs x a /\ In m a.
Proof.
  induction l as [|x l IH]; intros ms H m Hm; inversion H; subst; [destruct Hm|]. apply in_app_or in Hm. destruct Hm as [Hm|Hm].
  - exists x, a. simpl. auto.
  - match goal with A : occurs_all l b |- _ => destruct (IH _ A _ Hm) as (y & c & ? & ? & ?) end. exists y, c. simpl. auto.
Qed.
Lemma occurs_total : forall e, exists l, occurs e l.
Proof.
  apply operand_ind. intros e IH. destruct (leaf e) as [l|] eqn:E; [exists l; now constructor|].
  assert (HA : exists l, occurs_all (operands e) l).
  { induction (operands e) as [|x xs IHl]; [exists []; constructor|].
    destruct (IH x) as [a Ha]; [now left|]. destruct IHl as [b Hb]; [intros; apply IH; now right|]. exists (a ++ b). now constructor. }
  destruct HA as [l Hl]. exists l. now apply occ_inner.
Qed.
Lemma occurs_fun : forall e l, occurs e l -> forall l', occurs e l' -> l = l'.
Proof.
  apply (operand_ind (fun e => forall l, occurs e l -> forall l', occurs e l' -> l = l')). intros e IH l H l' H'.
  inversion H; subst; inversion H'; subst; try congruence.
  clear H H'. match goal with A : occurs_all _ l, B : occurs_all _ l' |- _ => revert l l' A B end.
  induction (operands e) as [|x xs IHl]; intros l l' A B; inversion A; subst; inversion B; subst; auto.
  f_equal; [eapply IH; eauto; now left|]. apply IHl; auto. intros k Hk. apply IH. now right.
Qed.

(** Registering subqueries *)
Definition regs (prefix : gostring) (owner : option nat) (qs : list (nat * node)) (es : estate) : estate :=
  fold_left (fun es q => register prefix owner (fst q) es) qs es.
Lemma regs_app : forall p o a b es, regs p o (a ++ b) es = regs p o b (regs p o a es).
Proof. intros. apply fold_left_app. Qed.
Lemma subqueries_app : forall a b, subqueries (a ++ b) = subqueries a ++ subqueries b.
Proof. intros. apply flat_map_app. Qed.
Lemma regs_last : forall p o l es, es_last (regs p o l es) = es_last es.
Proof. induction l as [|x l IH]; intros es; simpl; auto. unfold regs in *. simpl. rewrite IH. reflexivity. Qed.

Lemma NoDup_app_l : forall (A : Type) (a b : list A), NoDup (a ++ b) -> NoDup a.
Proof. induction a as [|x a IH]; intros b H; [constructor|]. inversion H; subst. constructor; [|eauto]. intros HI. apply H2. apply in_or_app. auto. Qed.
Lemma NoDup_app_r : forall (A : Type) (a b : list A), NoDup (a ++ b) -> NoDup b.
Proof. induction a as [|x a IH]; intros b H; auto. inversion H; subst. auto. Qed.

Lemma NoDup_app_disj : forall (A : Type) (a b : list A) x, NoDup (a ++ b) -> In x a -> In x b -> False.
Proof.
  induction a as [|y a IH]; simpl; [tauto|]. intros b x HN [->|Ha] Hi; inversion HN; subst; [|eauto].
  match goal with H : ~ In _ _ |- _ => apply H end. apply in_or_app. auto.
Qed.

Notation reg := (bool * (nat * node))%type.                   (* in an expression? *)
Definition reg1 (top : option nat) (es : estate) (r : reg) : estate :=
  register (if fst r then lit "field" else lit "select") (if fst r then top else None) (fst (snd r)) es.
Definition regl (top : option nat) (rs : list reg) (es : estate) : estate := fold_left (reg1 top) rs es.
Definition in_exprs (rs : list reg) : list (nat * node) := map snd (filter fst rs).
Definition in_from (rs : list reg) : list (nat * node) := map snd (filter (fun r => negb (fst r)) rs).
Definition reg_ids (rs : list reg) : list nat := map (fun r => fst (snd r)) rs.
Definition fresh (es : estate) (id : nat) : Prop := fget (es_found es) id = None.
Definition agrees (nm : nat -> gostring) (es : estate) : Prop :=
  forall id x o, fget (es_found es) id = Some (x, o) -> nm id = x.
Definition ext (es es' : estate) : Prop := forall id x, fget (es_found es) id = Some x -> fget (es_found es') id = Some x.
Lemma ext_refl : forall es, ext es es. Proof. intros es id x H. exact H. Qed.
Lemma ext_trans : forall a b c, ext a b -> ext b c -> ext a c. Proof. intros a b c H1 H2 id x H. auto. Qed.
Lemma ext_agrees : forall nm a b, ext a b -> agrees nm b -> agrees nm a.
Proof. intros nm a b HE HA id x o H. eapply HA, HE, H. Qed.
Lemma regl_app : forall top a b es, regl top (a ++ b) es = regl top b (regl top a es).
Proof. intros. apply fold_left_app. Qed.
Lemma in_exprs_app : forall a b, in_exprs (a ++ b) = in_exprs a ++ in_exprs b.
Proof. intros. unfold in_exprs. now rewrite filter_app, map_app. Qed.
Lemma in_from_app : forall a b, in_from (a ++ b) = in_from a ++ in_from b.
Proof. intros. unfold in_from. now rewrite filter_app, map_app. Qed.
Lemma reg_ids_app : forall a b, reg_ids (a ++ b) = reg_ids a ++ reg_ids b.
Proof. intros. apply map_app. Qed.
Lemma regl_last : forall top rs es, es_last (regl top rs es) = es_last es.
Proof. induction rs as [|x l IH]; intros es; simpl; auto. unfold regl in *. simpl. rewrite IH. reflexivity. Qed.
Definition exprs_regs (qs : list (nat * node)) : list reg := map (fun q => (true, q)) qs.
Lemma regs_regl : forall top qs es, regs (lit "field") top qs es = regl top (exprs_regs qs) es.
Proof. induction qs as [|q qs IH]; intros es; simpl; auto. Qed.
Lemma exprs_regs_exprs : forall qs, in_exprs (exprs_regs qs) = qs.
Proof. induction qs as [|q qs IH]; unfold in_exprs in *; simpl; auto. now rewrite IH. Qed.
Lemma exprs_regs_from : forall qs, in_from (exprs_regs qs) = [].
Proof. induction qs as [|q qs IH]; unfold in_from in *; simpl; auto. Qed.
(** A registration is found afterwards, and none is lost, as long as ids are new *)
Lemma fget_other : forall p o id es id', id' <> id -> fget (es_found (register p o id es)) id' = fget (es_found es) id'.
Proof. intros. simpl. destruct (Nat.eqb id' id) eqn:E; auto. apply Nat.eqb_eq in E. congruence. Qed.
Lemma regl_other : forall top rs es id, ~ In id (reg_ids rs) -> fget (es_found (regl top rs es)) id = fget (es_found es) id.
Proof.
  intros top. induction rs as [|r rs IH]; intros es id H; simpl; auto. simpl in H.
  unfold regl in *. simpl. rewrite IH by tauto. unfold reg1. apply fget_other. intros E. apply H. left. auto.
Qed.
Lemma regl_ext : forall top rs es, (forall id, In id (reg_ids rs) -> fresh es id) -> ext es (regl top rs es).
Proof.
  intros top rs es H id x Hx. destruct (in_dec Nat.eq_dec id (reg_ids rs)) as [HI|HI].
  - apply H in HI. unfold fresh in HI. congruence.
  - now rewrite regl_other.
Qed.
Lemma regl_fresh_tail : forall top a b es, NoDup (reg_ids (a ++ b)) -> (forall id, In id (reg_ids (a ++ b)) -> fresh es id) ->
    forall id, In id (reg_ids b) -> fresh (regl top a es) id.
Proof.
  intros top a b es HN HF id Hi. unfold fresh. rewrite regl_other; [apply HF; rewrite reg_ids_app; apply in_or_app; auto|].
  intros Ha. rewrite reg_ids_app in HN. eapply NoDup_app_disj; eauto.
Qed.


Section Pg.
  Context (norm : gostring -> gostring) (target : gostring).
  Notation collect_expr := (collect_expr norm target).
  Notation offends := (offends target).
  Notation as_fcol := (as_fcol norm).
  Notation fld := (lit "field").

  Lemma foreign_spec : forall parts pos, schema_specified target parts pos = true <-> foreign target pos parts.
  Proof.
    intros parts pos. unfold schema_specified, foreign. rewrite orb_true_iff, andb_true_iff, Nat.eqb_eq, Nat.ltb_lt, negb_true_iff.
    assert (HS : seqb (nth pos parts []) target = false <-> nth pos parts [] <> target).
    { split; intros H; [intros E; apply seqb_eq in E; congruence|]. destruct (seqb _ _) eqn:E; auto. apply seqb_eq in E. congruence. }
    rewrite HS. tauto.
  Qed.
  Lemma foreign_dec : forall parts pos, foreign target pos parts \/ ~ foreign target pos parts.
  Proof. intros. rewrite <- foreign_spec. destruct (schema_specified target parts pos); auto. Qed.

  Fixpoint collect_all (top : option nat) (ty : field_type) (l : list node) (es : estate) : outcome (list fcol * estate) :=
    match l with
    | [] => Ok ([], es)
    | x :: l' => do r <- collect_expr top ty x es; do r2 <- collect_all top ty l' (snd r); Ok (fst r ++ fst r2, snd r2)
    end.
  Lemma collect_all_app : forall top ty a b es, collect_all top ty (a ++ b) es =
    (do r <- collect_all top ty a es; do r2 <- collect_all top ty b (snd r); Ok (fst r ++ fst r2, snd r2)).
  Proof.
    induction a as [|x a IH]; intros b es; simpl.
    - destruct (collect_all top ty b es) as [[? ?]| |]; reflexivity.
    - destruct (collect_expr top ty x es) as [[c1 e1]| |]; simpl; auto. rewrite IH.
      destruct (collect_all top ty a e1) as [[c2 e2]| |]; simpl; auto.
      destruct (collect_all top ty b e2) as [[c3 e3]| |]; simpl; auto. now rewrite app_assoc.
  Qed.
  Lemma collect_all_1 : forall top ty x es, collect_all top ty [x] es = collect_expr top ty x es.
  Proof. intros. simpl. destruct (collect_expr top ty x es) as [[c1 e1]| |]; simpl; auto. now rewrite app_nil_r. Qed.

  Lemma collect_offends : forall top ty e es, offends e -> exists m, collect_expr top ty e es = Ok ([], fail m es).
  Proof.
    intros top ty e es H. destruct e; try (elim H; fail); try (simpl; eauto; fail).
    - destruct t; try (elim H; fail); simpl; eauto.
    - destruct e; try (elim H; fail); simpl; eauto.
    - destruct e; try (elim H; fail); simpl in H |- *. apply foreign_spec in H. rewrite H. eauto.
    - destruct e; try (elim H; fail); simpl in H |- *. apply foreign_spec in H. rewrite H. eauto.
    - simpl in H |- *. apply foreign_spec in H. rewrite H. eauto.
    - simpl in H |- *. apply foreign_spec in H. rewrite H. eauto.
    - simpl in H |- *. apply foreign_spec in H. rewrite H. eauto.
    - simpl. destruct e; simpl; eauto. destruct e; simpl; eauto. elim H.
  Qed.
  Lemma not_foreign : forall parts pos, ~ foreign target pos parts -> schema_specified target parts pos = false.
  Proof. intros parts pos H. destruct (schema_specified target parts pos) eqn:E; auto. apply foreign_spec in E. tauto. Qed.
  Lemma collect_leaf : forall top ty e l es, leaf e = Some l -> ~ offends e ->
      collect_expr top ty e es = Ok (map (as_fcol ty) l, regs fld top (subqueries l) es).
  Proof.
    intros top ty e l es HL HO. destruct e; simpl in HL; try discriminate; simpl in HO |- *.
    - destruct e; try discriminate. simpl. rewrite not_foreign by auto. inversion HL; subst. reflexivity.
    - destruct e; try discriminate. simpl. rewrite not_foreign by auto. inversion HL; subst. reflexivity.
    - rewrite not_foreign by auto. destruct star; inversion HL; subst; reflexivity.
    - inversion HL; subst. reflexivity.
    - rewrite not_foreign by auto. inversion HL; subst. reflexivity.
    - rewrite not_foreign by auto. inversion HL; subst. reflexivity.
    - destruct e; try (elim HO; auto; fail). destruct e; try (elim HO; auto; fail). inversion HL; subst. reflexivity.
  Qed.
  Lemma outcome_eta : forall (A B : Type) (x : outcome (A * B)), (do r <- x; Ok (fst r, snd r)) = x.
  Proof. intros A B [[? ?]| |]; reflexivity. Qed.
  Lemma many_eq : forall top ty l es, (fix many (l : list node) (es : estate) {struct l} : outcome (list fcol * estate) :=
      match l with
      | [] => Ok ([], es)
      | x :: l' => do r <- collect_expr top ty x es; do r2 <- many l' (snd r); Ok (fst r ++ fst r2, snd r2)
      end) l es = collect_all top ty l es.
  Proof. induction l as [|x l IH]; intros; simpl; auto. destruct (collect_expr top ty x es) as [[? ?]| |]; simpl; auto. now rewrite IH. Qed.
  Lemma args_eq : forall top ty l es, (fix args (l : list node) (es : estate) {struct l} : outcome (list fcol * estate) :=
      match l with
      | [] => Ok ([], es)
      | Star :: l' => args l' es
      | x :: l' => do r <- collect_expr top ty x es; do r2 <- args l' (snd r); Ok (fst r ++ fst r2, snd r2)
      end) l es = collect_all top ty (filter (fun x => negb (is_star x)) l) es.
  Proof.
    induction l as [|x l IH]; intros; simpl; auto.
    destruct x; cbn [is_star negb];
      try (cbn [collect_all]; destruct (collect_expr top ty _ es) as [[? ?]| |]; simpl; auto; rewrite IH; auto). apply IH.
  Qed.
  Lemma orders_eq : forall top ty l es, (fix orders (l : list node) (es : estate) {struct l} : outcome (list fcol * estate) :=
      match l with
      | [] => Ok ([], es)
      | Order x _ :: l' => do r <- collect_expr top ty x es; do r2 <- orders l' (snd r); Ok (fst r ++ fst r2, snd r2)
      | _ :: l' => orders l' es
      end) l es = collect_all top ty (order_exprs l) es.
  Proof.
    induction l as [|x l IH]; intros; simpl; auto. destruct x; try apply IH. simpl.
    destruct (collect_expr top ty x1 es) as [[? ?]| |]; simpl; auto. now rewrite IH.
  Qed.
  (** Collecting a window definition *)
  Definition collect_frame (top : option nat) (ty : field_type) (fr : node) (es : estate) : outcome (list fcol * estate) :=
    match fr with
    | Nil => Ok ([], es)
    | WindowFrame (FrameBound s) (FrameBound e) =>
        do b1 <- collect_expr top ty s es; do b2 <- collect_expr top ty e (snd b1); Ok (fst b1 ++ fst b2, snd b2)
    | WindowFrame (FrameBound s) _ => do b1 <- collect_expr top ty s es; Panic
    | _ => Panic
    end.
  Definition collect_window (top : option nat) (ty : field_type) (w : node) (es : estate) : outcome (list fcol * estate) :=
    match w with
    | WindowDef p wo fr =>
        do q1 <- collect_all top ty (items_of p) es; do q2 <- collect_all top ty (order_exprs wo) (snd q1);
        do q3 <- collect_frame top ty fr (snd q2); Ok (fst q1 ++ fst q2 ++ fst q3, snd q3)
    | _ => Ok ([], es)
    end.
  Lemma obind_ext : forall (A B : Type) (x y : outcome A) (f g : A -> outcome B),
      x = y -> (forall r, f r = g r) -> obind x f = obind y g.
  Proof. intros A B x y f g -> HG. destruct y; simpl; auto. Qed.
  Lemma collect_func : forall top ty a f w o es, collect_expr top ty (Func a f w o) es =
    (do r1 <- collect_all top ty (filter (fun x => negb (is_star x)) (items_of a)) es;
     do r2 <- collect_expr top ty f (snd r1);
     do r3 <- collect_window top ty w (snd r2);
     do r4 <- collect_all top ty (order_exprs o) (snd r3);
     Ok (fst r1 ++ fst r2 ++ fst r3 ++ fst r4, snd r4)).
  Proof.
    intros top ty a f w o es. cbn [PgCollect.collect_expr]. apply obind_ext.
    - destruct a; try reflexivity. apply args_eq.
    - intros r1. apply obind_ext; [reflexivity|]. intros r2. apply obind_ext.
      + destruct w; try reflexivity. cbn [collect_window]. apply obind_ext; [destruct w1; try reflexivity; apply many_eq|].
        intros q1. apply obind_ext; [apply orders_eq|]. reflexivity.
      + intros r3. now rewrite orders_eq.
  Qed.
  Lemma collect_window_ok : forall top ty w es,
      match w with WindowDef _ _ Nil | WindowDef _ _ (WindowFrame (FrameBound _) (FrameBound _)) => True | WindowDef _ _ _ => False | _ => True end ->
      collect_window top ty w es = collect_all top ty (window_operands w) es.
  Proof.
    intros top ty w es HF. destruct w; try reflexivity. cbn [collect_window]. destruct w2; try tauto; cbn [window_operands collect_frame].
    - rewrite collect_all_app. destruct (collect_all top ty (items_of w1) es) as [[? s3]| |]; cbn [obind fst snd]; auto.
      destruct (collect_all top ty (order_exprs order) s3) as [[? ?]| |]; cbn [obind fst snd]; auto. now rewrite app_nil_r.
    - destruct w2_1; try tauto. destruct w2_2; try tauto. cbn [bound_offset].
      rewrite collect_all_app. destruct (collect_all top ty (items_of w1) es) as [[? s3]| |]; cbn [obind fst snd]; auto.
      rewrite collect_all_app. destruct (collect_all top ty (order_exprs order) s3) as [[? s4]| |]; cbn [obind fst snd]; auto.
      cbn [app collect_all]. destruct (collect_expr top ty w2_1 s4) as [[? s5]| |]; cbn [obind fst snd]; auto.
      destruct (collect_expr top ty w2_2 s5) as [[? s6]| |]; cbn [obind fst snd]; auto. now rewrite app_nil_r.
  Qed.
  Lemma collect_inner : forall top ty e es, leaf e = None -> ~ offends e -> ~ half_frame e ->
      collect_expr top ty e es = collect_all top ty (operands e) es.
  Proof.
    intros top ty e es HL HO HF.
    destruct e; simpl in HL; try discriminate; simpl in HO; try tauto; try (simpl; rewrite ?app_nil_r; reflexivity).
    - destruct t; simpl in HO; try tauto; reflexivity.
    - cbn [PgCollect.collect_expr operands]. apply many_eq.
    - cbn [PgCollect.collect_expr operands]. now rewrite collect_all_1.
    - cbn [PgCollect.collect_expr operands collect_all]. destruct (collect_expr top ty e1 es) as [[c1 s1]| |]; simpl; auto.
      destruct (collect_expr top ty e2 s1) as [[c2 s2]| |]; simpl; auto. now rewrite app_nil_r.
    - cbn [PgCollect.collect_expr operands collect_all]. destruct (collect_expr top ty e1 es) as [[c1 s1]| |]; simpl; auto.
      destruct (collect_expr top ty e2 s1) as [[c2 s2]| |]; simpl; auto.
      destruct (collect_expr top ty e3 s2) as [[c3 s3]| |]; simpl; auto. now rewrite app_nil_r.
    - cbn [PgCollect.collect_expr operands]. apply many_eq.
    - cbn [PgCollect.collect_expr operands]. apply many_eq.
    - destruct e; try tauto. cbn [PgCollect.collect_expr operands]. apply many_eq.
    - cbn [PgCollect.collect_expr operands]. cbn [collect_all]. destruct (collect_expr top ty e1 es) as [[c1 s1]| |]; simpl; auto.
      rewrite many_eq, collect_all_app. destruct (collect_all top ty whens s1) as [[c2 s2]| |]; simpl; auto.
      destruct (collect_expr top ty e2 s2) as [[c3 s3]| |]; simpl; auto. now rewrite app_nil_r.
    - rewrite collect_func. cbn [operands]. rewrite collect_all_app.
      destruct (collect_all top ty (filter _ (items_of e1)) es) as [[c1 s1]| |]; cbn [obind fst snd]; auto.
      cbn [collect_all]. destruct (collect_expr top ty e2 s1) as [[c2 s2]| |]; cbn [obind fst snd]; auto.
      rewrite collect_all_app, collect_window_ok.
      + destruct (collect_all top ty (window_operands e3) s2) as [[c3 s3]| |]; cbn [obind fst snd]; auto.
        destruct (collect_all top ty (order_exprs order) s3) as [[c4 s4]| |]; cbn [obind fst snd]; auto.
      + simpl in HF. destruct e3; auto. destruct e3_2; auto. destruct e3_2_1; auto. destruct e3_2_2; auto.
    - cbn [PgCollect.collect_expr operands]. rewrite collect_all_1. destruct e; reflexivity || discriminate.
    - cbn [PgCollect.collect_expr operands]. rewrite collect_all_1. destruct e; reflexivity || discriminate.
    - destruct star; discriminate.
    - destruct e; try discriminate. destruct e; discriminate.
  Qed.
  Lemma offends_dec : forall e, offends e \/ ~ offends e.
  Proof.
    intros e. destruct e; simpl; auto using foreign_dec.
    - destruct t; auto.
    - destruct e; auto.
    - destruct e; auto using foreign_dec.
    - destruct e; auto using foreign_dec.
    - destruct e; auto. destruct e; auto.
  Qed.
  Lemma half_frame_dec : forall e, half_frame e \/ ~ half_frame e.
  Proof. intros e. destruct e; simpl; auto. destruct e3; auto. destruct e3_2; auto. destruct e3_2_1; auto. destruct e3_2_2; auto. Qed.
  Lemma offends_operands : forall e, leaf e = None -> offends e -> operands e = [].
  Proof.
    intros e HL HO. destruct e; simpl in *; try reflexivity; try tauto.
    - destruct e; simpl in *; try reflexivity; tauto.
    - destruct e; try tauto; discriminate.
    - destruct e; try tauto; discriminate.
  Qed.
  Lemma half_frame_leaf : forall e, half_frame e -> leaf e = None /\ ~ offends e.
  Proof. intros e H. destruct e; simpl in *; try tauto. Qed.
  Lemma part_operand : forall e k m, leaf e = None -> In k (operands e) -> part k m -> part e m.
  Proof. intros. econstructor; eauto. Qed.

  (** Exact result for a supported expression *)
  Lemma collect_ok : forall e l, occurs e l -> (forall m, part e m -> ~ offends m /\ ~ half_frame m) ->
      forall top ty es, collect_expr top ty e es = Ok (map (as_fcol ty) l, regs fld top (subqueries l) es).
  Proof.
    apply (operand_ind (fun e => forall l, occurs e l -> (forall m, part e m -> ~ offends m /\ ~ half_frame m) ->
      forall top ty es, collect_expr top ty e es = Ok (map (as_fcol ty) l, regs fld top (subqueries l) es))).
    intros e IH l H HP top ty es. destruct (HP e (part_self e)) as [HO HF]. inversion H; subst.
    - now apply collect_leaf.
    - rewrite collect_inner by auto.
      assert (HP' : forall k, In k (operands e) -> forall m, part k m -> ~ offends m /\ ~ half_frame m)
        by (intros k Hk m Hm; apply HP; eapply part_operand; eauto).
      clear HP H HO HF. match goal with A : occurs_all _ l |- _ => revert l A es end. 
      induction (operands e) as [|x xs IHl]; intros l A es; inversion A; subst; [reflexivity|].
      cbn [collect_all]. match goal with B : occurs x _ |- _ => rewrite (IH x (or_introl eq_refl) _ B (HP' x (or_introl eq_refl))) end. cbn [obind fst snd].
      match goal with B : occurs_all xs _ |- _ => rewrite (IHl (fun k Hk => IH k (or_intror Hk)) (fun k Hk => HP' k (or_intror Hk)) _ B) end. cbn [obind fst snd].
      now rewrite map_app, subqueries_app, regs_app.
  Qed.

  (** Never an error value; a crash iff some window has only one bound; the
      error mark is set iff something offends. *)
  Definition shape (e : node) (es : estate) (r : outcome (list fcol * estate)) : Prop :=
    match r with
    | Ok (_, es') => (forall m, part e m -> ~ half_frame m) /\
        (es_last es' = None <-> es_last es = None /\ forall m, part e m -> ~ offends m)
    | Err _ => False
    | Panic => exists m, part e m /\ half_frame m
    end.
  Lemma part_leaf : forall e m l, leaf e = Some l -> part e m -> m = e.
  Proof. intros e m l HL H. inversion H; subst; auto. congruence. Qed.
  Lemma collect_shape : forall e top ty es, shape e es (collect_expr top ty e es).
  Proof.
    apply (operand_ind (fun e => forall top ty es, shape e es (collect_expr top ty e es))).
    intros e IH top ty es. destruct (leaf e) as [l|] eqn:HL.
    - assert (HH : ~ half_frame e) by (intros H; apply half_frame_leaf in H; destruct H; congruence).
      destruct (offends_dec e) as [HO|HO].
      + destruct (collect_offends top ty e es HO) as [m E]. rewrite E. simpl. split; [intros x Hx; now rewrite (part_leaf _ _ _ HL Hx)|].
        split; [discriminate|]. intros [_ H]. elim (H e); auto. constructor.
      + rewrite (collect_leaf _ _ _ _ _ HL HO). simpl. split; [intros x Hx; now rewrite (part_leaf _ _ _ HL Hx)|].
        rewrite regs_last. split; [intros H; split; auto; intros x Hx; now rewrite (part_leaf _ _ _ HL Hx)|tauto].
    - destruct (offends_dec e) as [HO|HO].
      + destruct (collect_offends top ty e es HO) as [m E]. rewrite E. simpl.
        assert (HH : forall x, part e x -> x = e).
        { intros x Hx. inversion Hx; subst; auto. rewrite (offends_operands e) in *; auto. match goal with A : In _ [] |- _ => destruct A end. }
        split; [intros x Hx; rewrite (HH x Hx); intros H; apply half_frame_leaf in H; tauto|].
        split; [discriminate|]. intros [_ H]. elim (H e); auto. constructor.
      + destruct (half_frame_dec e) as [HF|HF].
        * (* the crash; whatever was collected before, the outcome is Panic *)
          assert (HN : collect_expr top ty e es = Panic).
          { assert (HK : forall l, (forall k, In k l -> In k (operands e)) ->
              forall es, match collect_all top ty l es with Err _ => False | _ => True end).
            { induction l as [|x l IHl]; intros Hl es'; simpl; auto. pose proof (IH x (Hl x (or_introl eq_refl)) top ty es') as Hx.
              destruct (collect_expr top ty x es') as [[? s1]| |]; cbn [obind fst snd]; auto.
              pose proof (IHl (fun k Hk => Hl k (or_intror Hk)) s1) as Hy. destruct (collect_all top ty l s1) as [[? ?]| |]; cbn [obind]; auto. }
            destruct e; simpl in HF; try tauto. destruct e3; try tauto. rewrite collect_func.
            pose proof (HK (filter (fun x => negb (is_star x)) (items_of e1))) as K1. specialize (K1 ltac:(intros k Hk; cbn [operands]; apply in_or_app; auto) es).
            destruct (collect_all top ty (filter (fun x => negb (is_star x)) (items_of e1)) es) as [[? s1]| |]; cbn [obind fst snd]; try tauto.
            pose proof (IH e2 ltac:(cbn [operands]; apply in_or_app; simpl; auto) top ty s1) as K2. unfold shape in K2.
            destruct (collect_expr top ty e2 s1) as [[? s2]| |]; cbn [obind fst snd]; try tauto. cbn [collect_window].
            assert (HW : forall x, In x (items_of e3_1 ++ order_exprs order0) -> In x (operands (Func e1 e2 (WindowDef e3_1 order0 e3_2) order))).
            { intros x Hx. cbn [operands]. apply in_or_app. right. right. apply in_or_app. left. cbn [window_operands].
              destruct e3_2; auto. rewrite app_assoc. apply in_or_app. auto. }
            pose proof (HK (items_of e3_1) ltac:(intros k Hk; apply HW, in_or_app; auto) s2) as K3.
            destruct (collect_all top ty (items_of e3_1) s2) as [[? s3]| |]; cbn [obind fst snd]; try tauto.
            pose proof (HK (order_exprs order0) ltac:(intros k Hk; apply HW, in_or_app; auto) s3) as K4.
            destruct (collect_all top ty (order_exprs order0) s3) as [[? s4]| |]; cbn [obind fst snd]; try tauto.
            assert (HC : collect_frame top ty e3_2 s4 = Panic); [|now rewrite HC].
            assert (HB : forall s, In s (operands (Func e1 e2 (WindowDef e3_1 order0 e3_2) order)) -> (do b1 <- collect_expr top ty s s4; @Panic (list fcol * estate)) = Panic).
            { intros s Hs. pose proof (IH s Hs top ty s4) as K5. unfold shape in K5. destruct (collect_expr top ty s s4) as [[? ?]| |]; simpl; tauto. }
            cbn [operands window_operands] in HB. destruct e3_2; try reflexivity; try tauto. destruct e3_2_1; try reflexivity.
            cbn [collect_frame]. destruct e3_2_2; try tauto; apply HB; apply in_or_app; right; right; apply in_or_app; left; rewrite app_assoc; apply in_or_app; right; simpl; auto. }
          rewrite HN. exists e. split; auto. constructor.
        * rewrite (collect_inner _ _ _ _ HL HO HF).
          assert (HA : match collect_all top ty (operands e) es with
            | Ok (_, es') => (forall k m, In k (operands e) -> part k m -> ~ half_frame m) /\
                (es_last es' = None <-> es_last es = None /\ forall k m, In k (operands e) -> part k m -> ~ offends m)
            | Err _ => False
            | Panic => exists k m, In k (operands e) /\ part k m /\ half_frame m
            end).
          { clear HL HO HF. revert es. induction (operands e) as [|x xs IHl]; intros es; cbn [collect_all].
            - split; [intros k m []|]. split; [intros H; split; auto; intros k m []|tauto].
            - pose proof (IH x (or_introl eq_refl) top ty es) as Hx. destruct (collect_expr top ty x es) as [[c1 e1]| |]; simpl in Hx |- *.
              + specialize (IHl (fun k Hk => IH k (or_intror Hk)) e1). destruct (collect_all top ty xs e1) as [[c2 e2]| |]; simpl in IHl |- *; auto.
                * destruct Hx as [A1 A2], IHl as [B1 B2]. split; [intros k m [<-|Hk] Hm; eauto|]. rewrite B2, A2. split.
                  -- intros [[H1 H2] H3]. split; auto. intros k m [<-|Hk] Hm; eauto.
                  -- intros [H1 H2]. split; [split; auto; intros m Hm; eapply H2; eauto|]. intros k m Hk Hm. eapply H2; eauto.
                * destruct IHl as (k & m & Hk & Hm). exists k, m. auto.
              + destruct Hx.
              + destruct Hx as (m & Hm & Hh). exists x, m. auto. }
          destruct (collect_all top ty (operands e) es) as [[c es']| |]; simpl; auto.
          -- destruct HA as [A1 A2]. split.
             ++ intros m Hm. inversion Hm; subst; auto. eauto.
             ++ rewrite A2. split; intros [H1 H2]; split; auto.
                ** intros m Hm. inversion Hm; subst; auto. eauto.
                ** intros k m Hk Hm. apply H2. eapply part_operand; eauto.
          -- destruct HA as (k & m & Hk & Hm & Hh). exists m. split; auto. eapply part_operand; eauto.
  Qed.

  (** *** Collecting a SELECT *)
  Definition good (e : node) : Prop := forall m, part e m -> ~ offends m /\ ~ half_frame m.
  Definition nonempty (f : field) : bool := negb (Nat.eqb (length (f_cols f)) 0).
  (** A list of clauses turned into fields *)
  Definition covers (its : list clause_item) (fs : list field) (rs : list reg) : Prop :=
    Forall2 (clause_field norm) its fs /\ exists qss, Forall2 clause_subqueries its qss /\ in_exprs rs = concat qss.
  Lemma covers_nil : covers [] [] [].
  Proof. split; [constructor|]. exists []. split; constructor. Qed.
  Lemma covers_app : forall a b f g r q, covers a f r -> covers b g q -> covers (a ++ b) (f ++ g) (r ++ q).
  Proof.
    intros a b f g r q [A1 (x & A2 & A3)] [B1 (y & B2 & B3)]. split; [now apply Forall2_app|].
    exists (x ++ y). split; [now apply Forall2_app|]. rewrite in_exprs_app, concat_app. congruence.
  Qed.
  Lemma covers_one : forall ty as_ e ms, occurs e ms ->
      covers [(ty, as_, e)] [mk_field as_ (map (as_fcol ty) ms)] (exprs_regs (subqueries ms)).
  Proof.
    intros ty as_ e ms H. split.
    - constructor; constructor; simpl; eauto.
    - exists [subqueries ms]. split; [constructor; [exists ms; auto|constructor]|]. rewrite exprs_regs_exprs. simpl. now rewrite app_nil_r.
  Qed.

  Lemma row_fields_ok : forall top rows es, (forall e, In e rows -> good e) ->
      exists fs rs, row_fields norm target top rows es = Ok (fs, regl top rs es) /\ in_from rs = [] /\
        covers (map (fun e => (FReference, [], e)) rows) fs rs.
  Proof.
    intros top. induction rows as [|e rows IH]; intros es HG; simpl.
    - exists [], []. split; auto. split; auto. apply covers_nil.
    - destruct (occurs_total e) as [ms Hm]. rewrite (collect_ok e ms Hm (HG e (or_introl eq_refl))). cbn [obind fst snd].
      rewrite regs_regl.
      destruct (IH (regl top (exprs_regs (subqueries ms)) es)) as (fs & rs & E & HF & HC); [intros; apply HG; now right|].
      rewrite E. cbn [obind fst snd]. exists (mk_field [] (map (as_fcol FReference) ms) :: fs), (exprs_regs (subqueries ms) ++ rs).
      rewrite regl_app, in_from_app, exprs_regs_from. split; auto. split; auto.
      apply (covers_app [(FReference, [], e)] _ [_]); auto. now apply covers_one.
  Qed.
  Lemma tables_ok : forall n ss its ds, from_item norm target n ss its ds -> (forall i, In i its -> good (snd i)) ->
      forall top es, exists ts fs rs, collect_tables norm target top n es = Ok (ts, fs, regl top rs es) /\
        covers its fs rs /\ in_from rs = ds /\
        (forall nm, agrees nm (regl top rs es) -> NoDup (reg_ids rs) -> (forall id, In id (reg_ids rs) -> fresh es id) ->
           ts = map (as_table norm nm) ss).
  Proof.
    intros n ss its ds H.
    induction H as [schema name as_ lateral HS|sid id w b o l as_ lateral|rows|rows as_ lateral
        |l r c s1 s2 e1 e2 d1 d2 es0 H1 IH1 H2 IH2 HC|l r c as_ lateral ss es0 ds H IH]; intros HG top es.
    - assert (HN : schema_specified_name norm target [] schema = false).
      { unfold schema_specified_name. destruct HS as [->| ->]; auto. destruct target; auto. rewrite seqb_refl. auto. }
      cbn [collect_tables]. rewrite HN. exists [mk_table (norm as_) name false], [], []. split; auto. split; [apply covers_nil|]. auto.
    - cbn [collect_tables new_select_info]. eexists _, [], [(false, (id, Select id w b o l))]. split; [reflexivity|].
      split; [split; [constructor|exists []; split; [constructor|reflexivity]]|]. split; [reflexivity|].
      intros nm HA _ HF. simpl. f_equal. f_equal. symmetry. eapply (HA id). simpl. rewrite Nat.eqb_refl. reflexivity.
    - cbn [collect_tables]. destruct (row_fields_ok top rows es) as (fs & rs & E & HF & HC).
      { intros e He. apply (HG (FReference, [], e)). apply in_map_iff. eauto. }
      rewrite E. cbn [obind fst snd]. exists [], fs, rs. auto.
    - cbn [collect_tables]. destruct (row_fields_ok top rows es) as (fs & rs & E & HF & HC).
      { intros e He. apply (HG (FReference, [], e)). apply in_map_iff. eauto. }
      rewrite E. cbn [obind fst snd]. exists [], fs, rs. auto.
    - cbn [collect_tables].
      destruct (IH1 (fun i Hi => HG i (in_or_app _ _ _ (or_introl Hi))) top es) as (t1 & f1 & r1 & E1 & C1 & D1 & N1).
      destruct (IH2 (fun i Hi => HG i (in_or_app _ _ _ (or_intror (in_or_app _ _ _ (or_introl Hi))))) top (regl top r1 es)) as (t2 & f2 & r2 & E2 & C2 & D2 & N2).
      rewrite E1. cbn [obind fst snd]. rewrite E2. cbn [obind fst snd].
      assert (HX : exists fs rs, in_from rs = [] /\ covers es0 fs rs /\
        match c with
        | Nil => Ok (t1 ++ t2, f1 ++ f2, regl top r2 (regl top r1 es))
        | On x => do r3 <- collect_expr top FCondition x (regl top r2 (regl top r1 es));
                Ok (t1 ++ t2, (f1 ++ f2) ++ [mk_field [] (fst r3)], snd r3)
        | _ => Panic
        end = Ok (t1 ++ t2, f1 ++ f2 ++ fs, regl top (r1 ++ r2 ++ rs) es)).
      { inversion HC; subst.
        - exists [], []. rewrite !app_nil_r, regl_app. split; auto. split; [apply covers_nil|auto].
        - destruct (occurs_total e) as [ms Hm]. rewrite (collect_ok e ms Hm) by (apply (HG (FCondition, [], e)); apply in_or_app; right; apply in_or_app; right; simpl; auto).
          cbn [obind fst snd]. exists [mk_field [] (map (as_fcol FCondition) ms)], (exprs_regs (subqueries ms)).
          split; [apply exprs_regs_from|]. split; [now apply covers_one|]. now rewrite regs_regl, !regl_app, app_assoc. }
      destruct HX as (fs & rs & X1 & X2 & X3). exists (t1 ++ t2), (f1 ++ f2 ++ fs), (r1 ++ r2 ++ rs).
      split; [inversion HC; subst; exact X3|]. split; [apply covers_app; auto; apply covers_app; auto|].
      split; [rewrite !in_from_app, X1, D1, D2, app_nil_r; reflexivity|].
      intros nm HA HN HF. rewrite map_app.
      assert (K1 : ext (regl top r1 es) (regl top (r1 ++ r2 ++ rs) es)).
      { rewrite (regl_app top r1). apply regl_ext. now apply regl_fresh_tail. }
      assert (K2 : ext (regl top r2 (regl top r1 es)) (regl top (r1 ++ r2 ++ rs) es)).
      { rewrite <- regl_app, app_assoc, (regl_app top (r1 ++ r2)). apply regl_ext. rewrite app_assoc in HN, HF. now apply regl_fresh_tail. }
      f_equal.
      + apply N1; [eapply ext_agrees; eauto|rewrite reg_ids_app in HN; eapply NoDup_app_l; eauto|].
        intros i Hi. apply HF. rewrite reg_ids_app. apply in_or_app. auto.
      + apply N2; [eapply ext_agrees; eauto| |].
        * rewrite !reg_ids_app in HN. apply NoDup_app_r in HN. eapply NoDup_app_l; eauto.
        * intros i Hi. apply (regl_fresh_tail top r1 (r2 ++ rs)); auto. rewrite reg_ids_app. apply in_or_app. auto.
    - destruct (IH HG top es) as (ts & fs & rs & E & HR). exists ts, fs, rs. split; auto.
  Qed.

  Lemma no_error_id : forall es, es_last es = None -> no_error es = es.
  Proof. intros [a b c] H. simpl in H. subst. reflexivity. Qed.
  Lemma expr_field_ok : forall top ty as_ e ms errs es, occurs e ms -> good e -> es_last es = None ->
      expr_field norm target top ty as_ e errs es
      = Ok ([mk_field as_ (map (as_fcol ty) ms)], errs, regl top (exprs_regs (subqueries ms)) es).
  Proof.
    intros top ty as_ e ms errs es HO HG HL. unfold expr_field. rewrite (collect_ok e ms HO HG). cbn [obind fst snd].
    rewrite regs_regl, regl_last, HL. reflexivity.
  Qed.
  Lemma expr_fields_ok : forall top get l errs es, (forall x, In x l -> good (snd (get x))) -> es_last es = None ->
      exists fs rs, expr_fields norm target top get l errs es = Ok (fs, errs, regl top rs es) /\ in_from rs = [] /\
        covers (map (fun x => (FReference, fst (get x), snd (get x))) l) fs rs.
  Proof.
    intros top get. induction l as [|x l IH]; intros errs es HG HL; simpl.
    - exists [], []. split; auto. split; auto. apply covers_nil.
    - destruct (occurs_total (snd (get x))) as [ms Hm].
      rewrite (expr_field_ok _ _ _ _ _ _ _ Hm (HG x (or_introl eq_refl)) HL). cbn [obind].
      destruct (IH errs (regl top (exprs_regs (subqueries ms)) es)) as (fs & rs & E & HF & HC);
        [intros; apply HG; now right|now rewrite regl_last|].
      rewrite E. cbn [obind]. eexists _, (exprs_regs (subqueries ms) ++ rs). rewrite regl_app, in_from_app, exprs_regs_from.
      split; [reflexivity|]. split; auto. apply (covers_app [_] _ [_]); auto. now apply covers_one.
  Qed.
  Lemma opt_field_ok : forall top ty w errs es, (forall i, In i (where_item ty w) -> good (snd i)) -> es_last es = None ->
      exists fs rs, opt_field norm target top ty w errs es = Ok (fs, errs, regl top rs es) /\ in_from rs = [] /\ covers (where_item ty w) fs rs.
  Proof.
    intros top ty w errs es HG HL. destruct w; try (exists [], []; split; [reflexivity|]; split; [reflexivity|apply covers_nil]).
    destruct (occurs_total w) as [ms Hm]. cbn [opt_field where_item].
    rewrite (expr_field_ok _ _ _ _ _ _ _ Hm (HG (ty, [], w) (or_introl eq_refl)) HL).
    eexists _, _. split; [reflexivity|]. split; [apply exprs_regs_from|now apply covers_one].
  Qed.
  Lemma from_items_ok : forall froms sss its ds, from_items norm target froms sss its ds -> (forall i, In i its -> good (snd i)) ->
      forall top tables errs es, es_last es = None ->
      exists ts fs rs, PgCollect.from_items norm target top froms tables errs es = Ok ((ts, fs), errs, regl top rs es) /\
        covers its fs rs /\ in_from rs = ds /\
        (forall nm, agrees nm (regl top rs es) -> NoDup (reg_ids rs) -> (forall id, In id (reg_ids rs) -> fresh es id) ->
           ts = match froms with [] => tables | _ => map (as_table norm nm) (last sss []) end).
  Proof.
    intros froms sss its ds H. induction H as [|x xs ss sss e es0 d ds Hx Hxs IH]; intros HG top tables errs es HL; simpl.
    - exists tables, [], []. split; auto. split; [apply covers_nil|]. auto.
    - destruct (tables_ok x ss e d Hx (fun i Hi => HG i (in_or_app _ _ _ (or_introl Hi))) top es) as (t1 & f1 & r1 & E1 & C1 & D1 & N1).
      rewrite E1. cbn [obind]. rewrite regl_last, HL, no_error_id by (now rewrite regl_last).
      destruct (IH (fun i Hi => HG i (in_or_app _ _ _ (or_intror Hi))) top t1 errs (regl top r1 es)) as (t2 & f2 & r2 & E2 & C2 & D2 & N2); [now rewrite regl_last|].
      rewrite E2. cbn [obind]. exists t2, (f1 ++ f2), (r1 ++ r2). rewrite regl_app. split; auto. split; [now apply covers_app|].
      split; [rewrite in_from_app; congruence|]. intros nm HA HN HF.
      assert (HF2 : forall id, In id (reg_ids r2) -> fresh (regl top r1 es) id) by (now apply regl_fresh_tail).
      rewrite (N2 nm HA); [|rewrite reg_ids_app in HN; eapply NoDup_app_r; eauto|auto].
      destruct xs as [|y ys].
      + inversion Hxs; subst. simpl. apply N1; [|rewrite reg_ids_app in HN; eapply NoDup_app_l; eauto|].
        * eapply ext_agrees; [|exact HA]. apply regl_ext. exact HF2.
        * intros i Hi. apply HF. rewrite reg_ids_app. apply in_or_app. auto.
      + inversion Hxs; subst. reflexivity.
  Qed.
  Lemma map_get_select : forall xs, (forall x, In x xs -> exists e as_, x = SelectExpr e as_) ->
      map (fun x => (FReference, fst (get_select_expr x), snd (get_select_expr x))) xs
      = map (fun x => match x with SelectExpr e as_ => (FReference, as_, e) | _ => (FReference, [], x) end) xs.
  Proof. intros xs H. apply map_ext_in. intros x Hx. destruct (H x Hx) as (e & a & ->). reflexivity. Qed.
  Lemma map_get_order : forall os, (forall x, In x os -> exists e t, x = Order e t) ->
      map (fun x => (FReference, fst (get_order x), snd (get_order x))) os = map (fun e => (FReference, [], e)) (order_exprs os).
  Proof.
    induction os as [|o os IH]; intros H; simpl; auto. destruct (H o (or_introl eq_refl)) as (e & t & ->). simpl. f_equal.
    apply IH. intros x Hx. apply H. now right.
  Qed.
  Lemma nonempty_filter : forall fs, filter (fun f => match f_cols f with [] => false | _ => true end) fs = filter (fun f => negb (Nat.eqb (length (f_cols f)) 0)) fs.
  Proof. intros fs. apply filter_ext. intros f. destruct (f_cols f); reflexivity. Qed.
  Lemma collect_select_ok : forall xs a froms wh hv d g o l sss its ds,
      from_items norm target froms sss its ds ->
      (forall x, In x xs -> exists e as_, x = SelectExpr e as_) ->
      (o = Nil \/ exists os, o = OrderBy os /\ forall x, In x os -> exists e t, x = Order e t) ->
      (l = Nil \/ exists c off, l = Limit c off) ->
      (forall i, In i (clauses xs its wh hv g o l) -> good (snd i)) ->
      forall top errs es, es_last es = None ->
      exists ts fs rs, collect_select norm target top Nil (SelectClause (SelectExprs xs) (From a froms) wh hv d g false) o l errs es
          = Ok ((ts, filter (fun f => negb (Nat.eqb (length (f_cols f)) 0)) fs), errs, regl top rs es) /\
        covers (clauses xs its wh hv g o l) fs rs /\ in_from rs = ds /\
        (forall nm, agrees nm (regl top rs es) -> NoDup (reg_ids rs) -> (forall id, In id (reg_ids rs) -> fresh es id) ->
           ts = map (as_table norm nm) (last sss [])).
  Proof.
    intros xs a froms wh hv d g o l sss its ds HF Hxs Ho Hl HG top errs es HL. unfold collect_select. cbn [list_of].
    unfold clauses in HG. 
    destruct (expr_fields_ok top get_select_expr xs errs es) as (f1 & r1 & E1 & D1 & C1); auto.
    { intros x Hx. destruct (Hxs x Hx) as (e & as_ & ->). simpl. apply (HG (FReference, as_, e)). apply in_or_app. left.
      apply in_map_iff. exists (SelectExpr e as_). auto. }
    rewrite E1. cbn [obind]. rewrite map_get_select in C1 by auto.
    destruct (from_items_ok froms sss its ds HF) with (top := top) (tables := @nil table) (errs := errs) (es := regl top r1 es) as (ts & f2 & r2 & E2 & C2 & D2 & N2).
    { intros i Hi. apply HG. rewrite !in_app_iff. auto. } { now rewrite regl_last. }
    rewrite E2. cbn [obind]. rewrite <- regl_app in *.
    destruct (opt_field_ok top FCondition wh errs (regl top (r1 ++ r2) es)) as (f3 & r3 & E3 & D3 & C3).
    { intros i Hi. apply HG. rewrite !in_app_iff. auto. } { now rewrite regl_last. }
    rewrite E3. cbn [obind]. rewrite <- regl_app in *.
    destruct (expr_fields_ok top get_expr g errs (regl top ((r1 ++ r2) ++ r3) es)) as (f4 & r4 & E4 & D4 & C4).
    { intros x Hx. apply (HG (FReference, [], x)). rewrite !in_app_iff. do 3 right. left. apply in_map_iff. eauto. } { now rewrite regl_last. }
    rewrite E4. cbn [obind]. rewrite <- regl_app in *.
    destruct (opt_field_ok top FReference hv errs (regl top (((r1 ++ r2) ++ r3) ++ r4) es)) as (f5 & r5 & E5 & D5 & C5).
    { intros i Hi. apply HG. rewrite !in_app_iff. auto 10. } { now rewrite regl_last. }
    rewrite E5. cbn [obind]. rewrite <- regl_app in *.
    set (oi := match o with OrderBy os => map (fun e => (FReference, [], e)) (order_exprs os) | _ => [] end) in *.
    assert (EO : map (fun x => (FReference, fst (get_order x), snd (get_order x))) (list_of o) = oi).
    { subst oi. destruct Ho as [->|(os & -> & Hos)]; [reflexivity|]. simpl. now apply map_get_order. }
    destruct (expr_fields_ok top get_order (list_of o) errs (regl top ((((r1 ++ r2) ++ r3) ++ r4) ++ r5) es)) as (f6 & r6 & E6 & D6 & C6).
    { intros x Hx. apply (HG (FReference, fst (get_order x), snd (get_order x))). rewrite !in_app_iff. do 5 right. left.
      rewrite <- EO. apply in_map_iff. eauto. } { now rewrite regl_last. }
    rewrite E6. cbn [obind]. rewrite <- regl_app in *. rewrite EO in C6.
    set (r := ((((r1 ++ r2) ++ r3) ++ r4) ++ r5) ++ r6) in *.
    assert (HX : exists f7 r7, match l with
          | Limit cnt off =>
              do r <- expr_field norm target top FReference [] cnt errs (regl top r es);
              let '(fa, errs, es) := r in
              do r <- expr_field norm target top FReference [] off errs es;
              let '(fb, errs, es) := r in
              Ok (fa ++ fb, errs, es)
          | _ => Ok ([], errs, regl top r es)
          end = Ok (f7, errs, regl top (r ++ r7) es) /\ in_from r7 = [] /\
          covers (match l with Limit c off => [(FReference, [], c); (FReference, [], off)] | _ => [] end) f7 r7).
    { destruct Hl as [->|(c & off & ->)].
      - exists [], []. rewrite app_nil_r. split; auto. split; auto. apply covers_nil.
      - destruct (occurs_total c) as [m1 H1]. destruct (occurs_total off) as [m2 H2].
        assert (HG7 : forall i, In i [(FReference, [], c); (FReference, [], off)] -> good (snd i))
          by (intros i Hi; apply HG; rewrite !in_app_iff; do 6 right; exact Hi).
        rewrite (expr_field_ok _ _ _ _ _ _ _ H1 (HG7 _ (or_introl eq_refl))) by (now rewrite regl_last). cbn [obind].
        rewrite (expr_field_ok _ _ _ _ _ _ _ H2 (HG7 _ (or_intror (or_introl eq_refl)))) by (now rewrite !regl_last). cbn [obind].
        rewrite <- !regl_app. eexists _, (exprs_regs (subqueries m1) ++ exprs_regs (subqueries m2)).
        split; [reflexivity|]. split; [now rewrite in_from_app, !exprs_regs_from|].
        apply (covers_app [_] [_]); now apply covers_one. }
    destruct HX as (f7 & r7 & E7 & D7 & C7). rewrite E7. cbn [obind]. rewrite nonempty_filter.
    eexists _, _, _. split; [reflexivity|]. subst r. rewrite <- !app_assoc. split; [|split].
    - unfold clauses. fold oi. repeat (apply covers_app; auto).
    - rewrite !in_from_app, D1, D2, D3, D4, D5, D6, D7, !app_nil_r. reflexivity.
    - intros nm HA HN HFr. rewrite (N2 nm).
      + destruct froms; auto. inversion HF; subst. reflexivity.
      + eapply ext_agrees; [|exact HA]. replace (r1 ++ r2 ++ r3 ++ r4 ++ r5 ++ r6 ++ r7) with ((r1 ++ r2) ++ (r3 ++ r4 ++ r5 ++ r6 ++ r7)) in * by (now rewrite <- !app_assoc).
        rewrite (regl_app top (r1 ++ r2)). apply regl_ext. now apply regl_fresh_tail.
      + rewrite !reg_ids_app in HN. apply NoDup_app_r in HN. eapply NoDup_app_l; eauto.
      + intros i Hi. apply (regl_fresh_tail top r1 (r2 ++ r3 ++ r4 ++ r5 ++ r6 ++ r7)); auto. rewrite reg_ids_app. apply in_or_app. auto.
  Qed.
End Pg.

(** ** Addresses *)
Lemma addresses_total : forall n, exists l, addresses n l.
Proof.
  apply node_ind'. intros n H. assert (HA : exists l, addresses_all (children n) l).
  { induction H as [|x l [a Ha] _ [b Hb]]; [exists []; constructor|]. exists (a ++ b). now constructor. }
  destruct HA as [l Hl]. exists (own_address n ++ l). now constructor.
Qed.
Lemma addresses_all_total : forall l, exists a, addresses_all l a.
Proof.
  induction l as [|x l [b Hb]]; [exists []; constructor|]. destruct (addresses_total x) as [a Ha]. exists (a ++ b). now constructor.
Qed.
Lemma addresses_all_app : forall l l' a, addresses_all (l ++ l') a -> exists b c, a = b ++ c /\ addresses_all l b /\ addresses_all l' c.
Proof.
  induction l as [|x l IH]; intros l' a H; simpl in H; [exists [], a; repeat split; auto; constructor|]. inversion H; subst.
  match goal with A : addresses_all (l ++ l') _ |- _ => destruct (IH _ _ A) as (b' & c & -> & HB & HC) end.
  eexists (_ ++ b'), c. rewrite app_assoc. repeat split; auto. now constructor.
Qed.
Lemma addresses_all_join : forall l l' b c, addresses_all l b -> addresses_all l' c -> addresses_all (l ++ l') (b ++ c).
Proof. induction l as [|x l IH]; intros l' b c H H'; inversion H; subst; simpl; auto. rewrite <- app_assoc. constructor; auto. Qed.
Lemma addresses_perm : forall l l', Permutation l l' -> forall a, addresses_all l a -> exists b, addresses_all l' b /\ Permutation a b.
Proof.
  intros l l' H. induction H as [|x l l' _ IH|x y l|l l' l'' _ IH1 _ IH2]; intros a HA.
  - exists a. auto.
  - inversion HA; subst. match goal with A : addresses_all l _ |- _ => destruct (IH _ A) as (b' & K1 & K2) end.
    eexists (_ ++ b'). split; [constructor; eauto|]. now apply Permutation_app_head.
  - inversion HA; subst. match goal with A : addresses_all (x :: l) _ |- _ => inversion A; subst end.
    eexists. split; [constructor; [|constructor]; eauto|]. rewrite !app_assoc. apply Permutation_app_tail, Permutation_app_comm.
  - destruct (IH1 _ HA) as (b & H1 & H2). destruct (IH2 _ H1) as (c & H3 & H4). exists c. split; auto. now transitivity b.
Qed.
Definition drop_nil (l : list node) : list node := flat_map opt l.
Lemma addresses_nil : forall a, addresses Nil a -> a = [].
Proof. intros a H. inversion H; subst. simpl in *. match goal with A : addresses_all [] _ |- _ => inversion A end. reflexivity. Qed.
Lemma addresses_drop : forall l a, addresses_all l a <-> addresses_all (drop_nil l) a.
Proof.
  induction l as [|x l IH]; intros a; [tauto|]. simpl. destruct x; simpl;
    try (split; intros H; inversion H; subst; constructor; auto; now apply IH). split; intros H.
  - inversion H; subst. match goal with A : addresses Nil _ |- _ => apply addresses_nil in A; subst end. now apply IH.
  - change a with ([] ++ a). constructor; [|now apply IH]. apply (addrs_node Nil []). constructor.
Qed.
Lemma drop_nil_app : forall a b, drop_nil (a ++ b) = drop_nil a ++ drop_nil b. Proof. intros. apply flat_map_app. Qed.
Lemma drop_nil_opt : forall x, drop_nil (opt x) = opt x. Proof. intros []; reflexivity. Qed.
Lemma kids_of_children : forall n, exists d, Permutation (drop_nil (children n)) (drop_nil (kids n) ++ d).
Proof.
  intros n.
  assert (HS : forall a b : list node, a = b -> exists d, Permutation a (b ++ d)) by (intros a b ->; exists []; now rewrite app_nil_r).
  assert (HE : forall a : list node, exists d, Permutation a ([] ++ d)) by (intros a; exists a; auto).
  destruct n; simpl kids; simpl children; try (apply HS; reflexivity); try apply HE.
  - destruct t; try (apply HS; reflexivity); apply HE.
  - destruct t; try (apply HS; reflexivity); apply HE.
  - exists (drop_nil order). simpl. rewrite drop_nil_app, drop_nil_opt. simpl. rewrite app_nil_r, <- !app_assoc. apply Permutation_refl.
  - exists (drop_nil order). simpl. rewrite drop_nil_opt, app_assoc. apply Permutation_refl.
  - apply HS. rewrite !drop_nil_app, !drop_nil_opt. simpl. rewrite app_nil_r. reflexivity.
  - apply HS. rewrite !drop_nil_app, !drop_nil_opt. simpl. now rewrite !app_nil_r.
  - exists []. simpl. rewrite !drop_nil_app, !drop_nil_opt. simpl. rewrite !app_nil_r. apply Permutation_app_head, Permutation_app_head, Permutation_app_head.
    rewrite (app_assoc (drop_nil distinct_on)). apply Permutation_app_comm.
  - exists (opt n2). simpl. rewrite !app_nil_r. apply Permutation_refl.
Qed.
Lemma kids_addresses : forall n a, addresses_all (children n) a -> exists b r, addresses_all (kids n) b /\ Permutation a (b ++ r).
Proof.
  intros n a H. apply addresses_drop in H. destruct (kids_of_children n) as [d Hd]. destruct (addresses_perm _ _ Hd _ H) as (c & Hc & HP).
  apply addresses_all_app in Hc. destruct Hc as (b & r & -> & Hb & _). exists b, r. split; auto. now apply addresses_drop.
Qed.
