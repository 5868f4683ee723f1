(** The scope tree built while walking a supported PostgreSQL statement. *)
From Coq Require Import String List NArith Bool Lia Arith Permutation.
From Verif Require Import Base Dec IndexText IndexBuild TableFields PgAst PgCollect PgSpec PgProofs.
Import ListNotations.

(** ** Names *)
Definition pre (b : bool) : gostring := if b then lit "field" else lit "select".
Definition named (es : estate) : Prop :=
  (forall id x o, fget (es_found es) id = Some (x, o) -> exists b k, x = select_name (pre b) k /\ k < next_count (pre b) (es_count es)) /\
  (forall i j x o o', fget (es_found es) i = Some (x, o) -> fget (es_found es) j = Some (x, o') -> i = j).
Lemma select_name_inj : forall b b' k k', select_name (pre b) k = select_name (pre b') k' -> b = b' /\ k = k'.
Proof.
  intros b b' k k' H. unfold select_name in H. destruct b, b'; simpl in H; try discriminate;
    repeat match goal with X : _ :: _ = _ :: _ |- _ => injection X as X end; split; auto;
    apply app_inv_tail in H; apply dec_of_N_inj in H; lia.
Qed.
Lemma pre_neq : forall b, pre b <> pre (negb b). Proof. intros []; discriminate. Qed.
Lemma next_count_register : forall b b' o id es, next_count (pre b') (es_count (register (pre b) o id es)) =
    if Bool.eqb b b' then S (next_count (pre b) (es_count es)) else next_count (pre b') (es_count es).
Proof.
  intros b b' o id es. unfold register. simpl. unfold next_count at 1. destruct (Bool.eqb b b') eqn:E.
  - apply eqb_prop in E. subst. rewrite mget_mset_same. reflexivity.
  - rewrite mget_mset_other; [reflexivity|]. destruct b, b'; discriminate.
Qed.
Lemma named_register : forall b o id es, fresh es id -> named es -> named (register (pre b) o id es).
Proof.
  intros b o id es HF [H1 H2]. split.
  - intros i x o' H. simpl in H. destruct (Nat.eqb i id) eqn:E.
    + inversion H; subst. exists b, (next_count (pre b) (es_count es)). split; auto. rewrite next_count_register, eqb_reflx. lia.
    + destruct (H1 _ _ _ H) as (b' & k & -> & Hk). exists b', k. split; auto. rewrite next_count_register. destruct (Bool.eqb b b') eqn:EB; auto.
      apply eqb_prop in EB. subst. lia.
  - assert (HX : forall i o', fget (es_found es) i = Some (select_name (pre b) (next_count (pre b) (es_count es)), o') -> False).
    { intros i o' Hi. destruct (H1 _ _ _ Hi) as (b' & k & E & Hk). apply select_name_inj in E. destruct E; subst. lia. }
    intros i j x o1 o2 Hi Hj. simpl in Hi, Hj. destruct (Nat.eqb i id) eqn:Ei, (Nat.eqb j id) eqn:Ej.
    + apply Nat.eqb_eq in Ei, Ej. congruence.
    + inversion Hi; subst. elim (HX _ _ Hj).
    + inversion Hj; subst. elim (HX _ _ Hi).
    + eauto.
Qed.
Lemma named_regl : forall top rs es, NoDup (reg_ids rs) -> (forall id, In id (reg_ids rs) -> fresh es id) -> named es -> named (regl top rs es).
Proof.
  intros top. induction rs as [|r rs IH]; intros es HN HF HI; simpl; auto. apply IH.
  - inversion HN; auto.
  - apply (regl_fresh_tail top [r] rs); auto.
  - unfold reg1. apply (named_register (fst r)); auto. apply HF. now left.
Qed.
Lemma regl_get : forall top rs es b id q, NoDup (reg_ids rs) -> In (b, (id, q)) rs ->
    exists x, fget (es_found (regl top rs es)) id = Some (x, if b then top else None).
Proof.
  intros top. induction rs as [|r rs IH]; intros es b id q HN HI; [destruct HI|]. inversion HN; subst. destruct HI as [->|HI].
  - change (regl top ((b, (id, q)) :: rs) es) with (regl top rs (reg1 top es (b, (id, q)))). rewrite regl_other by auto.
    simpl. rewrite Nat.eqb_refl. eauto.
  - apply (IH (reg1 top es r) b id q); auto.
Qed.

(** ** The heap of scopes *)
Lemma update_length : forall f h i, length (update i f h) = length h.
Proof. induction h as [|c h IH]; intros [|i]; simpl; auto. Qed.
Lemma update_same : forall f h i, nth_error (update i f h) i = option_map f (nth_error h i).
Proof. induction h as [|c h IH]; intros [|i]; simpl; auto. Qed.
Lemma update_other : forall f h i j, i <> j -> nth_error (update i f h) j = nth_error h j.
Proof. induction h as [|c h IH]; intros [|i] [|j] H; simpl; auto; congruence. Qed.
Lemma nth_error_app_last : forall (A : Type) (h : list A) c, nth_error (h ++ [c]) (length h) = Some c.
Proof. induction h; simpl; auto. Qed.

Inductive den (h : list cell) : nat -> scope -> Prop :=
| den_cell : forall i c fs ss, nth_error h i = Some c -> dens h i (cl_fscopes c) fs -> dens h i (cl_subs c) ss ->
    den h i (Scope (cl_name c) (cl_fields c) fs (cl_tables c) ss)
with dens (h : list cell) : nat -> list nat -> list scope -> Prop :=
| dens_nil : forall i, dens h i [] []
| dens_cons : forall i j js s ss, i < j -> den h j s -> dens h i js ss -> dens h i (j :: js) (s :: ss).
Scheme den_mut := Induction for den Sort Prop with dens_mut := Induction for dens Sort Prop.
Lemma den_agree : forall h h' i sc, den h i sc -> (forall j c, i <= j -> nth_error h j = Some c -> nth_error h' j = Some c) -> den h' i sc.
Proof.
  intros h h' i sc H. induction H using den_mut with
    (P0 := fun i is ss (_ : dens h i is ss) => (forall j c, i <= j -> nth_error h j = Some c -> nth_error h' j = Some c) -> dens h' i is ss); intros HA.
  - constructor; auto.
  - constructor.
  - constructor; auto. apply IHden. intros k c Hk. apply HA. lia.
Qed.
Lemma den_bound : forall h i sc, den h i sc -> i < length h.
Proof. intros h i sc H. inversion H; subst. apply nth_error_Some. congruence. Qed.
Lemma den_read : forall h i sc, den h i sc -> forall fuel, length h - i <= fuel -> read_scope fuel h i = sc.
Proof.
  intros h i sc H. induction H using den_mut with
    (P0 := fun i is ss (_ : dens h i is ss) => forall fuel, length h - S i <= fuel -> map (read_scope fuel h) is = ss); intros fuel HF.
  - assert (HB : i < length h) by (apply nth_error_Some; congruence). destruct fuel as [|fuel]; [lia|]. simpl.
    rewrite (nth_error_nth h i (new_cell [])  e). rewrite IHden, IHden0 by lia. reflexivity.
  - reflexivity.
  - simpl. f_equal; [apply IHden; lia|]. apply IHden0. lia.
Qed.

(** ** Subqueries met by the walker *)
Inductive meets : node -> list (nat * (nat * node)) -> Prop :=
| meets_sub : forall sid id w b o l, meets (Subquery sid (ParenSelect (Select id w b o l))) [(sid, (id, Select id w b o l))]
| meets_other : forall n l, match n with Subquery _ _ | Select _ _ _ _ _ => False | _ => True end -> known n = true ->
    meets_all (kids n) l -> meets n l
with meets_all : list node -> list (nat * (nat * node)) -> Prop :=
| meets_nil : meets_all [] []
| meets_cons : forall x xs a b, meets x a -> meets_all xs b -> meets_all (x :: xs) (a ++ b).
Lemma meets_all_app : forall l l' a b, meets_all l a -> meets_all l' b -> meets_all (l ++ l') (a ++ b).
Proof. induction l as [|x l IH]; intros l' a b H H'; inversion H; subst; simpl; auto. rewrite <- app_assoc. constructor; auto. Qed.
Lemma meets_all_1 : forall x a, meets x a -> meets_all [x] a.
Proof. intros x a H. rewrite <- (app_nil_r a). constructor; auto. constructor. Qed.
Lemma meets_Nil : meets Nil []. Proof. apply meets_other; simpl; auto. constructor. Qed.
Lemma meets_opt : forall x a, meets x a -> meets_all (opt x) a.
Proof.
  intros x a H. destruct x; simpl; try (now apply meets_all_1). inversion H; subst. simpl in *. auto.
Qed.
Definition met_addresses (ms : list (nat * (nat * node))) : list address := map (fun m => ASelect (fst (snd m))) ms.
(** Their addresses are among all addresses, each once *)
Lemma perm_insert : forall (A : Type) (x : list A) a b, Permutation (x ++ a ++ b) (a ++ x ++ b).
Proof. intros. rewrite !app_assoc. apply Permutation_app_tail, Permutation_app_comm. Qed.
Lemma meets_addresses : forall n ms a, meets n ms -> addresses n a -> exists r, Permutation a (met_addresses ms ++ r).
Proof.
  apply (node_sind (fun n => forall ms a, meets n ms -> addresses n a -> exists r, Permutation a (met_addresses ms ++ r))).
  intros n IH ms a HM HA. inversion HA; subst. inversion HM; subst.
  - simpl in H. inversion H; subst. match goal with X : addresses (ParenSelect _) _ |- _ => inversion X; subst; simpl in * end.
    match goal with X : addresses_all [Select _ _ _ _ _] _ |- _ => inversion X; subst end.
    match goal with X : addresses (Select _ _ _ _ _) _ |- _ => inversion X; subst; simpl in * end.
    eexists. apply perm_swap.
  - destruct (kids_addresses _ _ H) as (b & r & HB & HP).
    assert (HL : forall l, (forall k, In k l -> In k (kids n)) -> forall ms b, meets_all l ms -> addresses_all l b -> exists r, Permutation b (met_addresses ms ++ r)).
    { induction l0 as [|x xs IHl]; intros Hin ms' b' HM' HB'; inversion HM'; subst; inversion HB'; subst.
      - exists []. auto.
      - match goal with X : meets x _, Y : addresses x _ |- _ => destruct (IH x x) with (2 := within_self x) (3 := X) (4 := Y) as [r1 R1] end.
        { apply kids_children, Hin. now left. }
        match goal with X : meets_all xs _, Y : addresses_all xs _ |- _ => destruct (IHl (fun k Hk => Hin k (or_intror Hk)) _ _ X Y) as [r2 R2] end.
        exists (r1 ++ r2). unfold met_addresses. rewrite map_app, <- app_assoc. rewrite R1, R2. rewrite <- !app_assoc.
        apply Permutation_app_head. apply perm_insert. }
    destruct (HL (kids n) (fun k Hk => Hk) _ _ H2 HB) as [r' R']. exists (own_address n ++ r' ++ r).
    rewrite HP, R'. rewrite <- app_assoc. apply perm_insert.
Qed.
Lemma meets_all_addresses : forall l ms a, meets_all l ms -> addresses_all l a -> exists r, Permutation a (met_addresses ms ++ r).
Proof.
  induction l as [|x xs IHl]; intros ms' b' HM' HB'; inversion HM'; subst; inversion HB'; subst.
  - exists []. auto.
  - match goal with X : meets x _, Y : addresses x _ |- _ => destruct (meets_addresses _ _ _ X Y) as [r1 R1] end.
    match goal with X : meets_all xs _, Y : addresses_all xs _ |- _ => destruct (IHl _ _ X Y) as [r2 R2] end.
    exists (r1 ++ r2). unfold met_addresses. rewrite map_app, <- app_assoc. rewrite R1, R2. rewrite <- !app_assoc.
    apply Permutation_app_head. apply perm_insert.
Qed.

(** ** The subqueries in the clauses are the ones the walker meets *)
Definition met := (nat * (nat * node))%type.
Lemma subquery_free : forall e, ~ has_subquery e -> forall l, occurs e l -> subqueries l = [].
Proof.
  apply (operand_ind (fun e => ~ has_subquery e -> forall l, occurs e l -> subqueries l = [])).
  intros e IH HN l HO. inversion HO; subst.
  - destruct e; try discriminate; simpl in H; try (inversion H; subst; reflexivity).
    + destruct e; inversion H; subst; reflexivity.
    + destruct e; inversion H; subst; reflexivity.
    + destruct star; inversion H; reflexivity.
    + elim HN. exists (Subquery id e). split; [constructor|exact I].
  - assert (HL : forall xs, (forall x, In x xs -> In x (operands e)) -> forall l, occurs_all xs l -> subqueries l = []).
    { induction xs as [|x xs IHx]; intros HI l' HA; inversion HA; subst; auto. rewrite subqueries_app.
      match goal with X : occurs_all xs _ |- _ => rewrite (IHx (fun k Hk => HI k (or_intror Hk)) _ X) end. rewrite app_nil_r. apply (IH x); auto.
      - apply HI. now left.
      - intros (q & Hq & Hs). apply HN. exists q. split; auto. eapply part_in; eauto. apply HI. now left. }
    apply (HL (operands e)); auto.
Qed.
Definition found_in (e : node) (qs : list (nat * node)) : Prop := exists ms : list met, meets e ms /\ Permutation (map snd ms) qs.
Definition found_all (es : list node) (qs : list (nat * node)) : Prop := exists ms : list met, meets_all es ms /\ Permutation (map snd ms) qs.
Lemma found_all_app : forall a b p q, found_all a p -> found_all b q -> found_all (a ++ b) (p ++ q).
Proof.
  intros a b p q (x & X1 & X2) (y & Y1 & Y2). exists (x ++ y). split; [now apply meets_all_app|]. rewrite map_app. now apply Permutation_app.
Qed.
Lemma found_all_1 : forall e q, found_in e q -> found_all [e] q.
Proof. intros e q (x & X1 & X2). exists x. split; auto. now apply meets_all_1. Qed.
Lemma found_all_nil : found_all [] []. Proof. exists []. split; constructor. Qed.
Lemma found_all_perm : forall a p q, Permutation p q -> found_all a p -> found_all a q.
Proof. intros a p q H (x & X1 & X2). exists x. split; auto. now transitivity p. Qed.
Lemma found_opt : forall e q, found_in e q -> found_all (opt e) q.
Proof. intros e q (x & X1 & X2). exists x. split; auto. now apply meets_opt. Qed.
Lemma found_node : forall n q, match n with Subquery _ _ | Select _ _ _ _ _ => False | _ => True end -> known n = true ->
    found_all (kids n) q -> found_in n q.
Proof. intros n q H1 H2 (x & X1 & X2). exists x. split; auto. now constructor. Qed.
Lemma occurs_all_app : forall a b l, occurs_all (a ++ b) l -> exists x y, l = x ++ y /\ occurs_all a x /\ occurs_all b y.
Proof.
  induction a as [|e a IH]; intros b l H; simpl in H; [exists [], l; repeat split; auto; constructor|]. inversion H; subst.
  match goal with A : occurs_all (a ++ b) _ |- _ => destruct (IH _ _ A) as (x & y & -> & HX & HY) end.
  eexists (_ ++ x), y. rewrite app_assoc. repeat split; auto. now constructor.
Qed.
Lemma occurs_all_1 : forall e l, occurs_all [e] l -> occurs e l.
Proof. intros e l H. inversion H; subst. match goal with X : occurs_all [] _ |- _ => inversion X; subst end. now rewrite app_nil_r. Qed.

Section Pg.
  Context (norm : gostring -> gostring) (target : gostring).
  Notation fine := (fine target).
  Lemma fine_operand : forall e k, leaf e = None -> fine e -> In k (operands e) -> fine k.
  Proof. intros e k HL HF HK m Hm. apply HF. eapply part_in; eauto. Qed.
  Lemma fine_found : forall e, fine e -> forall l, occurs e l -> found_in e (subqueries l).
  Proof.
    apply (operand_ind (fun e => fine e -> forall l, occurs e l -> found_in e (subqueries l))).
    intros e IH HF l HO. destruct (HF e (part_self e)) as (F1 & F2 & F3 & F4 & F5).
    inversion HO; subst.
    - destruct e; try discriminate; simpl in H.
      + destruct e; inversion H; subst; apply found_node; simpl; auto; apply found_all_1, found_node; simpl; auto; apply found_all_nil.
      + destruct e; inversion H; subst; apply found_node; simpl; auto; apply found_all_1, found_node; simpl; auto; apply found_all_nil.
      + destruct star; inversion H; subst; apply found_node; simpl; auto; apply found_all_nil.
      + inversion H; subst; apply found_node; simpl; auto; apply found_all_nil.
      + destruct e; try (elim F1; exact I). destruct e; try (elim F1; exact I). inversion H; subst. exists [(id, (id0, Select id0 e1 e2 e3 e4))].
        split; [constructor|apply Permutation_refl].
    - assert (HL : forall xs, (forall x, In x xs -> In x (operands e)) -> forall l, occurs_all xs l -> found_all xs (subqueries l)).
      { induction xs as [|x xs IHx]; intros HI l' HA; inversion HA; subst; [apply found_all_nil|]. rewrite subqueries_app.
        apply (found_all_app [x]).
        - apply found_all_1, IH; auto; [apply HI; now left|]. eapply fine_operand; eauto. apply HI. now left.
        - apply IHx; auto. intros; apply HI; now right. }
      assert (HZ : forall xs, (forall x, In x xs -> ~ has_subquery x) -> forall l, occurs_all xs l -> subqueries l = []).
      { induction xs as [|x xs IHx]; intros HI l' HA; inversion HA; subst; auto. rewrite subqueries_app.
        rewrite (subquery_free x) by (auto; apply HI; now left). simpl. apply IHx; auto. intros; apply HI; now right. }
      destruct e; try discriminate; try (elim F1; exact I); try (simpl in H; discriminate).
      + apply found_node; simpl; auto; apply HL; auto.
      + apply found_node; simpl; auto; apply HL; auto.
      + rewrite (HZ ds); [|intros x Hx Hs; apply F4; simpl; eauto|auto]. apply found_node; simpl; auto. apply found_all_nil.
      + apply found_node; simpl; auto; destruct t; try discriminate; apply (HL [e]); auto.
      + apply found_node; simpl; auto; apply (HL [e1; e2]); auto.
      + apply found_node; simpl; auto; destruct t; try discriminate; apply (HL [e1; e2; e3]); auto.
      + apply found_node; simpl; auto.
      + apply found_node; simpl; auto.
      + destruct e; try (elim F1; exact I). apply found_node; simpl; auto; apply found_all_1, found_node; simpl; auto.
      + apply found_node; simpl; auto; simpl in H0. inversion H0; subst. 
        match goal with A : occurs_all (whens ++ _) _ |- _ => apply occurs_all_app in A; destruct A as (x & y & -> & HX & HY) end.
        rewrite !subqueries_app.
        apply found_all_perm with (subqueries a ++ subqueries y ++ subqueries x); [apply Permutation_app_head, Permutation_app_comm|].
        apply (found_all_app [e1]); [apply (HL [e1]); [simpl; tauto|rewrite <- (app_nil_r a); constructor; [auto|constructor]]|].
        apply (found_all_app [e2]); apply HL; auto; intros z Hz; simpl; rewrite in_app_iff; simpl in *; tauto.
      + destruct F5 as [(args & ->) Fw]. simpl in H0. apply occurs_all_app in H0. destruct H0 as (la & lb & -> & HA & HB).
        inversion HB; subst. match goal with X : occurs_all (_ ++ order_exprs order) _ |- _ => apply occurs_all_app in X; destruct X as (lw & lo & -> & HW & HOr) end.
        rename a into lf. rewrite !subqueries_app. rewrite (HZ _) with (2 := HOr) by (intros x Hx Hs; apply F4; exists x; auto). rewrite app_nil_r.
        apply found_node; simpl; auto.
        apply found_all_perm with (subqueries lw ++ subqueries la ++ subqueries lf).
        { rewrite (app_assoc (subqueries la)). apply Permutation_app_comm. }
        apply found_all_app; [|apply (found_all_app [_])].
        * apply found_opt. destruct Fw as [->|(p & wo & fr & ->)].
          { inversion HW; subst. apply found_node; simpl; auto. apply found_all_nil. }
          apply found_node; simpl; auto.
          assert (HWO : forall lz, occurs_all (order_exprs wo) lz -> subqueries lz = []).
          { apply HZ. intros x Hx Hs. apply F4. exists x. auto. }
          assert (HIn : forall x, In x p -> In x (operands (Func (Exprs args) e2 (WindowDef (Exprs p) wo fr) order))).
          { intros x Hx. simpl. apply in_or_app. right. right. apply in_or_app. left. destruct fr; simpl; rewrite !in_app_iff; tauto. }
          destruct fr; try (elim F2; exact I).
          -- simpl in HW. apply occurs_all_app in HW. destruct HW as (x & y & -> & HX & HY). rewrite subqueries_app, (HWO _ HY).
             apply (found_all_app [_]); [|apply found_all_nil]. apply found_all_1, found_node; simpl; auto.
          -- destruct fr1; try (elim F2; exact I). destruct fr2; try (elim F2; exact I).
             simpl in HW. apply occurs_all_app in HW. destruct HW as (x & y & -> & HX & HY). 
             apply occurs_all_app in HY. destruct HY as (y1 & y2 & -> & HY1 & HY2). rewrite !subqueries_app, (HWO _ HY1). simpl app at 2.
             apply (found_all_app [_]); [apply found_all_1, found_node; simpl; auto|]. apply found_all_1, found_node; simpl; auto.
             inversion HY2; subst. match goal with X : occurs_all [fr2] _ |- _ => apply occurs_all_1 in X end. rewrite subqueries_app.
             apply (found_all_app [_] [_]); apply found_all_1, found_node; simpl; auto; (apply HL;
               [intros z [<-|[]]; simpl; rewrite !in_app_iff; simpl; rewrite !in_app_iff; simpl; tauto
               |match goal with X : occurs ?e ?l |- occurs_all [?e] ?l => rewrite <- (app_nil_r l); constructor; [exact X|constructor] end]).
        * apply found_all_1, found_node; simpl; auto.
          assert (HI : forall xs, (forall x, In x xs -> In x args) -> forall la, occurs_all (filter (fun x => negb (is_star x)) xs) la ->
              found_all xs (subqueries la)).
          { induction xs as [|x xs IHa]; intros HI l' HX; simpl in HX; [inversion HX; subst; apply found_all_nil|].
            destruct (is_star x) eqn:ES; simpl in HX.
            - apply (found_all_app [x] xs [] (subqueries l')).
              + destruct x; try discriminate. apply found_all_1, found_node; simpl; auto. apply found_all_nil.
              + apply IHa; auto. intros; apply HI; now right.
            - inversion HX; subst. rewrite subqueries_app. apply (found_all_app [x]).
              + apply HL; [|match goal with X : occurs x ?l |- _ => rewrite <- (app_nil_r l); constructor; [exact X|constructor] end].
                intros z [<-|[]]. simpl. apply in_or_app. left. apply filter_In. rewrite ES. split; auto. apply HI. now left.
              + apply IHa; auto. intros; apply HI; now right. }
          apply HI; auto.
        * apply (HL [e2]); [|rewrite <- (app_nil_r lf); constructor; [auto|constructor]].
          intros z [<-|[]]. simpl. apply in_or_app. right. now left.
      + apply found_node; simpl; auto; apply (HL [e]); auto; destruct e; auto; discriminate.
      + apply found_node; simpl; auto; apply (HL [e]); auto; destruct e; auto; discriminate.
      + simpl in H. destruct star; discriminate.
      + simpl in H. destruct e; try discriminate. destruct e; discriminate.
  Qed.

  (** Subqueries with the part they are met in: an expression or FROM *)
  Notation lab := (bool * met)%type.
  Definition lx (ls : list lab) : list (nat * node) := map (fun m => snd (snd m)) (filter fst ls).
  Definition lf (ls : list lab) : list (nat * node) := map (fun m => snd (snd m)) (filter (fun m => negb (fst m)) ls).
  Lemma lx_app : forall a b, lx (a ++ b) = lx a ++ lx b. Proof. intros. unfold lx. now rewrite filter_app, map_app. Qed.
  Lemma lf_app : forall a b, lf (a ++ b) = lf a ++ lf b. Proof. intros. unfold lf. now rewrite filter_app, map_app. Qed.
  Definition in_expr (ms : list met) : list lab := map (fun m => (true, m)) ms.
  Lemma lx_expr : forall ms, lx (in_expr ms) = map snd ms.
  Proof. induction ms as [|m ms IH]; unfold lx in *; simpl; auto. now rewrite IH. Qed.
  Lemma lf_expr : forall ms, lf (in_expr ms) = [].
  Proof. induction ms as [|m ms IH]; unfold lf in *; simpl; auto. Qed.
  Lemma snd_expr : forall ms, map snd (in_expr ms) = ms.
  Proof. induction ms as [|m ms IH]; simpl; auto. now rewrite IH. Qed.
  (** The nodes meet exactly the subqueries of [its] and the derived tables [ds] *)
  Definition meeting (ns : list node) (its : list clause_item) (ds : list (nat * node)) : Prop :=
    exists ls : list lab, meets_all ns (map snd ls) /\ lf ls = ds /\
      exists qss, Forall2 clause_subqueries its qss /\ Permutation (lx ls) (concat qss).
  Lemma meeting_nil : meeting [] [] [].
  Proof. exists []. split; [constructor|]. split; auto. exists []. split; constructor. Qed.
  Lemma meeting_app : forall a b i j d e, meeting a i d -> meeting b j e -> meeting (a ++ b) (i ++ j) (d ++ e).
  Proof.
    intros a b i j d e (x & X1 & <- & qx & X3 & X4) (y & Y1 & <- & qy & Y3 & Y4). exists (x ++ y). rewrite map_app.
    split; [now apply meets_all_app|]. split; [apply lf_app|]. exists (qx ++ qy). split; [now apply Forall2_app|].
    rewrite lx_app, concat_app. now apply Permutation_app.
  Qed.
  Lemma meeting_perm : forall a i j d, Permutation i j -> meeting a i d -> meeting a j d.
  Proof.
    intros a i j d HP (x & X1 & X2 & qs & X3 & X4). exists x. split; auto. split; auto.
    assert (HQ : exists qs', Forall2 clause_subqueries j qs' /\ Permutation qs qs').
    { clear -HP X3. revert qs X3. induction HP as [|y i j _ IH|y z i|i j k _ IH1 _ IH2]; intros qs H.
      - exists qs. auto.
      - inversion H; subst. match goal with X : Forall2 _ i _ |- _ => destruct (IH _ X) as (q' & K1 & K2) end.
        eexists. split; [constructor; eauto|]. now constructor.
      - inversion H; subst. match goal with X : Forall2 _ (_ :: i) _ |- _ => inversion X; subst end.
        eexists. split; [constructor; [|constructor]; eauto|]. constructor.
      - destruct (IH1 _ H) as (q1 & K1 & K2). destruct (IH2 _ K1) as (q2 & K3 & K4). exists q2. split; auto. now transitivity q1. }
    destruct HQ as (qs' & H1 & H2). exists qs'. split; auto. rewrite X4. clear -H2.
    induction H2; simpl; auto; [now apply Permutation_app_head|apply perm_insert|now transitivity (concat l')].
  Qed.
  Lemma meeting_node : forall n i d, match n with Subquery _ _ | Select _ _ _ _ _ => False | _ => True end -> known n = true ->
      meeting (kids n) i d -> meeting [n] i d.
  Proof. intros n i d H1 H2 (x & X1 & X2). exists x. split; auto. apply meets_all_1. now constructor. Qed.
  Lemma meeting_expr : forall ty as_ e, fine e -> meeting [e] [(ty, as_, e)] [].
  Proof.
    intros ty as_ e HF. destruct (occurs_total e) as [l Hl]. destruct (fine_found e HF l Hl) as (ms & M1 & M2).
    exists (in_expr ms). rewrite snd_expr, lf_expr, lx_expr. split; [now apply meets_all_1|]. split; auto.
    exists [subqueries l]. split; [constructor; [exists l; auto|constructor]|]. simpl. now rewrite app_nil_r.
  Qed.
  Lemma meeting_opt : forall n i d, meeting [n] i d -> meeting (opt n) i d.
  Proof.
    intros n i d H. destruct n; auto. simpl. destruct H as (x & X1 & X2). inversion X1; subst.
    match goal with A : meets Nil _ |- _ => inversion A; subst end. match goal with A : meets_all [] _ |- _ => inversion A; subst end.
    match goal with A : meets_all (kids Nil) _ |- _ => inversion A; subst end.
    exists x. split; auto. match goal with A : [] ++ [] = _ |- _ => rewrite <- A end. constructor.
  Qed.
  Lemma meeting_exprs : forall (A : Type) (f : A -> node) (g : A -> field_type * gostring) (l : list A), (forall x, In x l -> fine (f x)) ->
      meeting (map f l) (map (fun x => (fst (g x), snd (g x), f x)) l) [].
  Proof.
    induction l as [|x l IH]; intros H; [apply meeting_nil|]. simpl. apply (meeting_app [_] _ [_] _ [] []).
    - apply meeting_expr, H. now left.
    - apply IH. intros; apply H; now right.
  Qed.
  Lemma meeting_leaf : forall n, match n with Subquery _ _ | Select _ _ _ _ _ => False | _ => True end -> known n = true -> kids n = [] -> meeting [n] [] [].
  Proof. intros n H1 H2 H3. apply meeting_node; auto. rewrite H3. apply meeting_nil. Qed.
  Lemma meeting_from_item : forall n ss its ds, from_item norm target n ss its ds -> (forall i, In i its -> fine (snd i)) -> meeting [n] its ds.
  Proof.
    assert (HR : forall rows, (forall i : clause_item, In i (map (fun e => (FReference, [], e)) rows) -> fine (snd i)) ->
      meeting [RowsFrom rows] (map (fun e => (FReference, [], e)) rows) []).
    { intros rows H. apply meeting_node; simpl; auto.
      rewrite <- (map_id rows) at 1. apply (meeting_exprs node (fun x => x) (fun _ => (FReference, [])) rows).
      intros x Hx. apply (H (FReference, [], x)). apply in_map_iff. eauto. }
    intros n ss its ds H.
    induction H as [schema name as_ lateral HS|sid id w b o l as_ lateral|rows|rows as_ lateral
        |l r c s1 s2 e1 e2 d1 d2 es0 H1 IH1 H2 IH2 HC|l r c as_ lateral ss es0 ds H IH]; intros HG.
    - apply meeting_node; simpl; auto. now apply meeting_leaf.
    - apply meeting_node; simpl; auto. exists [(false, (sid, (id, Select id w b o l)))]. split; [apply meets_all_1; constructor|].
      split; [reflexivity|]. exists []. split; constructor.
    - auto.
    - apply meeting_node; simpl; auto.
    - apply meeting_node; simpl; auto.
      apply (meeting_app [l] [r; c] e1 (e2 ++ es0)); [apply IH1; intros; apply HG; rewrite !in_app_iff; auto|].
      rewrite <- (app_nil_r d2). apply (meeting_app [r] [c] e2 es0); [apply IH2; intros; apply HG; rewrite !in_app_iff; auto|].
      inversion HC; subst; [now apply meeting_leaf|]. apply meeting_node; simpl; auto. apply meeting_expr.
      apply (HG (FCondition, [], e)). rewrite !in_app_iff. simpl. auto.
    - apply meeting_node; simpl; auto.
  Qed.
  Lemma meeting_from_items : forall ns sss its ds, from_items norm target ns sss its ds -> (forall i, In i its -> fine (snd i)) -> meeting ns its ds.
  Proof.
    intros ns sss its ds H. induction H as [|x xs ss sss e es d ds Hx Hxs IH]; intros HG; [apply meeting_nil|].
    apply (meeting_app [x]); [eapply meeting_from_item; eauto|apply IH]; intros; apply HG; apply in_or_app; auto.
  Qed.
  Lemma meeting_where : forall ty w, optional (fun n => exists e, n = Where e) w -> (forall i, In i (where_item ty w) -> fine (snd i)) ->
      meeting (opt w) (where_item ty w) [].
  Proof.
    intros ty w [->|(e & ->)] H; [apply meeting_nil|]. apply meeting_node; simpl; auto. apply meeting_expr. apply (H (ty, [], e)). now left.
  Qed.
  Lemma meeting_select : forall id xs a froms wh hv g o l sss es ds,
      from_items norm target froms sss es ds ->
      optional (fun n => n = AsOf Nil) a ->
      (forall x, In x xs -> exists e as_, x = SelectExpr e as_) ->
      optional (fun n => exists e, n = Where e) wh ->
      optional (fun n => exists e, n = Where e) hv ->
      optional (fun n => exists os, n = OrderBy os /\ forall x, In x os -> exists e t, x = Order e t /\ optional (fun n => exists c s t, n = TableName c s t) t) o ->
      optional (fun n => exists c off, n = Limit c off /\ ~ has_subquery off) l ->
      (forall i, In i (clauses xs es wh hv g o l) -> fine (snd i)) ->
      meeting (kids (Select id Nil (SelectClause (SelectExprs xs) (From a froms) wh hv [] g false) o l)) (clauses xs es wh hv g o l) ds.
  Proof.
    intros id xs a froms wh hv g o l sss es ds HF Ha Hxs Hw Hh Ho Hl HG. unfold clauses in *. simpl kids.
    set (ci := map (fun x => match x with SelectExpr e as_ => (FReference, as_, e) | _ => (FReference, [], x) end) xs) in *.
    set (oi := match o with OrderBy os => map (fun e => (FReference, [], e)) (order_exprs os) | _ => [] end) in *.
    set (li := match l with Limit c off => [(FReference, [], c); (FReference, [], off)] | _ => [] end) in *.
    set (gi := map (fun e => (FReference, [], e)) g) in *.
    apply meeting_perm with (oi ++ li ++ (ci ++ where_item FCondition wh ++ where_item FReference hv ++ gi ++ es)).
    { clear. set (W := where_item FCondition wh). set (V := where_item FReference hv). clearbody ci oi li gi W V.
      transitivity ((ci ++ W ++ V ++ gi ++ es) ++ oi ++ li).
      { rewrite (app_assoc oi). apply Permutation_app_comm. }
      rewrite <- app_assoc. apply Permutation_app_head.
      transitivity ((es ++ W ++ gi ++ V) ++ oi ++ li); [|now rewrite <- !app_assoc].
      apply Permutation_app_tail.
      transitivity ((W ++ V ++ gi) ++ es); [now rewrite <- !app_assoc|].
      rewrite Permutation_app_comm. apply Permutation_app_head, Permutation_app_head, Permutation_app_comm. }
    change ds with ([] ++ [] ++ ds). apply meeting_app; [|apply meeting_app].
    - subst oi. destruct Ho as [->|(os & -> & Hos)]; [apply meeting_nil|]. apply meeting_node; simpl; auto.
      assert (HGo : forall e, In e (order_exprs os) -> fine e).
      { intros e He. apply (HG (FReference, [], e)). rewrite !in_app_iff. do 5 right. left. apply in_map_iff. eauto. }
      clear -norm target Hos HGo. induction os as [|x os IH]; [apply meeting_nil|]. destruct (Hos x (or_introl eq_refl)) as (e & t & -> & Ht). simpl in *.
      apply (meeting_app [_] _ [_] _ [] []); [|apply IH; auto].
      apply meeting_node; simpl; auto. apply (meeting_app [_] [_] [_] [] [] []); [apply meeting_expr; auto|].
      apply meeting_leaf; destruct Ht as [->|(c & s & n & ->)]; simpl; auto.
    - subst li. destruct Hl as [->|(c & off & -> & HN)]; [apply meeting_nil|]. apply meeting_node; simpl; auto.
      destruct (meeting_expr FReference [] c) as (ls & L1 & L2 & qss & L3 & L4).
      { apply (HG (FReference, [], c)). rewrite !in_app_iff. do 6 right. simpl. auto. }
      destruct (occurs_total off) as [lo Hlo]. exists ls. split; auto. split; auto. exists (qss ++ [[]]). split.
      + apply (Forall2_app (l1 := [_])); auto. constructor; [|constructor]. exists lo. split; auto. now rewrite (subquery_free _ HN _ Hlo).
      + rewrite concat_app. simpl. now rewrite app_nil_r.
    - apply meeting_node; simpl; auto.
      change ds with ([] ++ [] ++ [] ++ [] ++ ds).
      apply (meeting_app [_]); [|apply meeting_app; [|apply meeting_app; [|apply meeting_app]]].
      + apply meeting_node; simpl; auto. subst ci.
        assert (HGc : forall e as_, In (SelectExpr e as_) xs -> fine e).
        { intros e as_ He. apply (HG (FReference, as_, e)). apply in_or_app. left. apply in_map_iff. exists (SelectExpr e as_). auto. }
        clear -norm target Hxs HGc. induction xs as [|x xs IH]; [apply meeting_nil|]. destruct (Hxs x (or_introl eq_refl)) as (e & as_ & ->). simpl.
        apply (meeting_app [_] _ [_] _ [] []); [|apply IH; intros; [apply Hxs; now right|eapply HGc; right; eauto]].
        apply meeting_node; simpl; auto. apply meeting_expr. eapply HGc. left. eauto.
      + apply meeting_where; auto. intros i Hi. apply HG. rewrite !in_app_iff. auto.
      + apply meeting_where; auto. intros i Hi. apply HG. rewrite !in_app_iff. auto 10.
      + subst gi. rewrite <- (map_id g) at 1. apply (meeting_exprs node (fun x => x) (fun _ => (FReference, []))).
        intros x Hx. apply (HG (FReference, [], x)). rewrite !in_app_iff. do 3 right. left. apply in_map_iff. eauto.
      + apply meeting_node; simpl; auto. apply (meeting_app [_] _ []  _ []).
        * apply meeting_node; [| |]; destruct Ha as [->| ->]; simpl; auto; try apply meeting_nil. now apply meeting_leaf.
        * eapply meeting_from_items; eauto. intros i Hi. apply HG. rewrite !in_app_iff. auto.
  Qed.
End Pg.
