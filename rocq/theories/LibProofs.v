(** Proofs about lib. *)
From Coq Require Import List ZArith Bool Arith Lia Permutation Sorted.
From Verif Require Import Base Lib LibSpec.
Import ListNotations.

Section S.
  Context {T : Type} (eq_dec : forall a b : T, {a = b} + {a <> b}).
  Notation contains := (contains eq_dec).
  Notation add := (add eq_dec).
  Notation delete := (delete eq_dec).
  Notation merge := (merge eq_dec).

  Lemma contains_iff : forall v s, contains v s = true <-> In v s.
  Proof. intros v s. unfold Lib.contains. destruct (in_dec eq_dec v s); split; auto; discriminate. Qed.
  Lemma add_In : forall v s w, In w (add v s) <-> In w s \/ w = v.
  Proof.
    intros v s w. unfold Lib.add. destruct (contains v s) eqn:E.
    - apply contains_iff in E. split; [auto|]. intros [H| ->]; auto.
    - rewrite in_app_iff. simpl. intuition.
  Qed.
  Lemma add_NoDup : forall v s, NoDup s -> NoDup (add v s).
  Proof.
    intros v s H. unfold Lib.add. destruct (contains v s) eqn:E; auto.
    eapply Permutation_NoDup; [apply Permutation_cons_append|]. constructor; auto.
    intros K. apply contains_iff in K. congruence.
  Qed.
  Lemma add_many_In : forall l s w, In w (fold_left (fun s o => add o s) l s) <-> In w s \/ In w l.
  Proof.
    induction l as [|a l IH]; intros s w; simpl; [tauto|]. rewrite IH, add_In. intuition (subst; auto).
  Qed.
  Lemma add_many_NoDup : forall l s, NoDup s -> NoDup (fold_left (fun s o => add o s) l s).
  Proof. induction l as [|a l IH]; intros s H; simpl; auto. apply IH. now apply add_NoDup. Qed.
  Lemma delete_In : forall v s w, In w (delete v s) <-> In w s /\ w <> v.
  Proof.
    intros v s w. unfold Lib.delete. rewrite filter_In. destruct (eq_dec w v); split; intros [H1 H2]; split; auto; congruence.
  Qed.
  Lemma delete_NoDup : forall v s, NoDup s -> NoDup (delete v s).
  Proof. intros v s H. now apply NoDup_filter. Qed.

  Lemma modify_length : forall i (f : @gset T -> @gset T) st, length (modify i f st) = length st.
  Proof. intros i f st. revert i. induction st as [|s st IH]; intros [|i]; simpl; auto. Qed.
  Lemma modify_nth : forall i (f : @gset T -> @gset T) st k, nth_error (modify i f st) k =
      if Nat.eqb k i then option_map f (nth_error st k) else nth_error st k.
  Proof.
    intros i f st. revert i. induction st as [|s st IH]; intros [|i] [|k]; simpl; auto. now destruct (Nat.eqb k i).
  Qed.

  Definition agrees (h : list (@set_op T)) (st : list (@gset T)) : Prop :=
    length st = made h /\ forall j s, nth_error st j = Some s -> NoDup s /\ forall w, In w s <-> member h j w.

  Lemma member_made : forall h : list (@set_op T), on_existing h -> forall j w, member h j w -> j < made h.
  Proof.
    induction h as [|o h IH]; intros He j w Hm; [elim Hm|].
    destruct o as [|os|i v|i v|i k]; simpl in *.
    - pose proof (IH He _ _ Hm). lia.
    - destruct Hm as [Hm|[-> _]]; [pose proof (IH He _ _ Hm)|]; lia.
    - destruct He as [Hi He]. destruct Hm as [Hm|[-> _]]; [pose proof (IH He _ _ Hm)|]; lia.
    - destruct He as [Hi He]. destruct Hm as [Hm _]. pose proof (IH He _ _ Hm). lia.
    - destruct He as (Hi & Hk & He). destruct Hm as [Hm|[-> _]]; [pose proof (IH He _ _ Hm)|]; lia.
  Qed.

  Lemma set_step_spec : forall ord o h st, (forall l, Permutation (ord l) l) -> on_existing (o :: h) -> agrees h st ->
      exists st', set_step eq_dec ord o st = Ok st' /\ agrees (o :: h) st'.
  Proof.
    intros ord o h st Hord He [Hl Ha].
    assert (HX : on_existing h) by (destruct o; simpl in He; tauto).
    assert (NEW : forall s os, NoDup s -> (forall w, In w s <-> In w os) ->
              length (st ++ [s]) = S (made h) /\
              forall j t, nth_error (st ++ [s]) j = Some t -> NoDup t /\
                forall w, In w t <-> member h j w \/ (j = made h /\ In w os)).
    { intros s os Hs Hw. split; [rewrite app_length; simpl; lia|]. intros j t Hj.
      destruct (Nat.lt_ge_cases j (length st)) as [Hlt|Hge].
      - rewrite nth_error_app1 in Hj by auto. destruct (Ha j t Hj) as [H1 H2]. split; auto. intros w. rewrite H2.
        split; auto. intros [|[-> _]]; auto. lia.
      - rewrite nth_error_app2 in Hj by auto. destruct (j - length st) as [|m] eqn:Em; [|destruct m; discriminate].
        simpl in Hj. injection Hj as <-. split; auto. intros w. rewrite Hw. split; [intros; right; split; auto; lia|].
        intros [Hm|[_ ?]]; auto. pose proof (member_made h HX _ _ Hm). lia. }
    destruct o as [|os|i v|i v|i k]; cbn [set_step].
    - eexists. split; [reflexivity|]. destruct (NEW new_set []) as [N1 N2]; [constructor|intros w; simpl; tauto|].
      split; auto. intros j t Hj. destruct (N2 j t Hj) as [D I]. split; auto. intros w. rewrite I. simpl. tauto.
    - eexists. split; [reflexivity|]. destruct (NEW (new_set_s eq_dec os) os) as [N1 N2].
      + apply add_many_NoDup. constructor.
      + intros w. unfold new_set_s. rewrite add_many_In. simpl. tauto.
      + split; auto.
    - destruct He as [Hi He]. destruct (Nat.ltb_spec i (length st)); [|lia]. eexists. split; [reflexivity|].
      split; [rewrite modify_length; exact Hl|]. intros j t Hj. rewrite modify_nth in Hj.
      destruct (Nat.eqb_spec j i) as [->|N].
      + destruct (nth_error st i) as [s|] eqn:E; [|discriminate]. simpl in Hj. injection Hj as <-.
        destruct (Ha i s E) as [D I]. split; [now apply add_NoDup|]. intros w. rewrite add_In, I. simpl. intuition.
      + destruct (Ha j t Hj) as [D I]. split; auto. intros w. rewrite I. simpl. intuition.
    - destruct He as [Hi He]. destruct (Nat.ltb_spec i (length st)); [|lia]. eexists. split; [reflexivity|].
      split; [rewrite modify_length; exact Hl|]. intros j t Hj. rewrite modify_nth in Hj.
      destruct (Nat.eqb_spec j i) as [->|N].
      + destruct (nth_error st i) as [s|] eqn:E; [|discriminate]. simpl in Hj. injection Hj as <-.
        destruct (Ha i s E) as [D I]. split; [now apply delete_NoDup|]. intros w. rewrite delete_In, I. simpl. intuition.
      + destruct (Ha j t Hj) as [D I]. split; auto. intros w. rewrite I. simpl. intuition.
    - destruct He as (Hi & Hk & He). destruct (nth_error st k) as [os|] eqn:Ek; [|apply nth_error_None in Ek; lia].
      destruct (Nat.ltb_spec i (length st)); [|lia]. eexists. split; [reflexivity|].
      split; [rewrite modify_length; exact Hl|]. intros j t Hj. rewrite modify_nth in Hj.
      destruct (Ha k os Ek) as [Dk Ik].
      destruct (Nat.eqb_spec j i) as [->|N].
      + destruct (nth_error st i) as [s|] eqn:E; [|discriminate]. simpl in Hj. injection Hj as <-.
        destruct (Ha i s E) as [D I]. unfold Lib.merge, values. split; [now apply add_many_NoDup|].
        intros w. rewrite add_many_In, I. simpl. rewrite <- Ik.
        assert (HP : In w (ord os) <-> In w os).
        { split; intros K; eapply Permutation_in; try exact K; [apply Hord|apply Permutation_sym, Hord]. }
        rewrite HP. intuition.
      + destruct (Ha j t Hj) as [D I]. split; auto. intros w. rewrite I. simpl. intuition.
  Qed.

  Lemma set_run_spec : forall ords ops h st, (forall n l, Permutation (ords n l) l) -> on_existing (rev ops ++ h) -> agrees h st ->
      exists st', set_run eq_dec ords ops st = Ok st' /\ agrees (rev ops ++ h) st'.
  Proof.
    intros ords ops. induction ops as [|o ops IH]; intros h st Ho He Ha; [simpl; eauto|].
    simpl in He. rewrite <- app_assoc in He. simpl in He.
    assert (HX : on_existing (o :: h)).
    { clear - He. revert He. generalize (rev ops). induction l as [|x l IH]; simpl; auto. destruct x; tauto. }
    cbn [set_run]. destruct (set_step_spec (ords (length ops)) o h st (Ho _) HX Ha) as (st1 & E1 & A1).
    rewrite E1. cbn [obind]. destruct (IH (o :: h) st1 Ho He A1) as (st2 & E2 & A2). exists st2. split; auto.
    simpl. now rewrite <- app_assoc.
  Qed.
End S.

(** ** Deduplication *)
Section U.
  Context {T U : Type} (eq_dec : forall a b : U, {a = b} + {a <> b}) (fn : T -> U).

  Lemma uniq_loop_spec : forall vals seen found res,
      (forall u, In u found <-> In u (map fn seen)) -> first_of_each_key fn seen res ->
      first_of_each_key fn (seen ++ vals) (uniq_loop eq_dec fn vals found res).
  Proof.
    induction vals as [|v vals IH]; intros seen found res Hf Hs; [now rewrite app_nil_r|].
    cbn [uniq_loop]. cbv zeta. replace (seen ++ v :: vals) with ((seen ++ [v]) ++ vals) by now rewrite <- app_assoc.
    destruct Hs as (ps & S1 & S2 & S3).
    assert (OLD : forall i, i < length seen ->
       ((exists x, nth_error (seen ++ [v]) i = Some x /\ forall j y, j < i -> nth_error (seen ++ [v]) j = Some y -> fn y <> fn x) <-> In i ps)).
    { intros i Hi. rewrite S2. split; intros (x & Hx & Hy); exists x.
      - rewrite nth_error_app1 in Hx by auto. split; auto. intros j y Hj Ey. apply (Hy j y Hj).
        now rewrite nth_error_app1 by lia.
      - rewrite nth_error_app1 by auto. split; auto. intros j y Hj Ey. apply (Hy j y Hj).
        now rewrite nth_error_app1 in Ey by lia. }
    assert (LT : forall i, In i ps -> i < length seen).
    { intros i Hi. apply S2 in Hi. destruct Hi as (x & Hx & _). apply nth_error_Some. congruence. }
    assert (NEW : nth_error (seen ++ [v]) (length seen) = Some v).
    { rewrite nth_error_app2, Nat.sub_diag by lia. reflexivity. }
    assert (MAP : map (nth_error (seen ++ [v])) ps = map (nth_error seen) ps).
    { apply map_ext_in. intros i Hi. apply nth_error_app1. now apply LT. }
    destruct (contains eq_dec (fn v) found) eqn:E.
    - apply contains_iff in E. apply Hf in E. apply IH.
      + intros u. rewrite Hf, map_app, in_app_iff. simpl. split; auto. intros [K|[<-|[]]]; auto.
      + exists ps. split; auto. split; [|now rewrite MAP]. intros i.
        destruct (Nat.lt_trichotomy i (length seen)) as [Hi|[->|Hi]].
        * symmetry. now apply OLD.
        * split; [intros K; apply LT in K; lia|]. intros (x & Hx & Hy). exfalso. rewrite NEW in Hx. injection Hx as <-.
          apply in_map_iff in E. destruct E as (y & Ey & Hin). apply In_nth_error in Hin. destruct Hin as (j & Hj).
          assert (Hlt : j < length seen) by (apply nth_error_Some; congruence).
          apply (Hy j y Hlt); auto. now rewrite nth_error_app1.
        * split; [intros K; apply LT in K; lia|]. intros (x & Hx & _). exfalso.
          assert (i < length (seen ++ [v])) by (apply nth_error_Some; congruence). rewrite app_length in H. simpl in H. lia.
    - assert (NE : ~ In (fn v) found) by (intros K; apply (contains_iff eq_dec) in K; congruence). apply IH.
      + intros u. rewrite add_In, Hf, map_app, in_app_iff. simpl. intuition.
      + exists (ps ++ [length seen]). split; [|split].
        * clear - S1 LT. induction S1 as [|a l S1 IHl Fa]; simpl; [repeat constructor|].
          constructor; [apply IHl; intros i Hi; apply LT; now right|].
          apply Forall_app. split; auto. constructor; [|constructor]. apply LT. now left.
        * intros i. rewrite in_app_iff. simpl. destruct (Nat.lt_trichotomy i (length seen)) as [Hi|[->|Hi]].
          -- rewrite OLD by auto. split; auto. intros [K|[K|[]]]; auto; lia.
          -- split; [|auto]. intros _. exists v. split; auto. intros j y Hj Ey K. rewrite nth_error_app1 in Ey by auto.
             apply NE. apply Hf. rewrite <- K. apply in_map. eapply nth_error_In; eauto.
          -- split; [intros [K|[K|[]]]; [apply LT in K|]; lia|]. intros (x & Hx & _). exfalso.
             assert (i < length (seen ++ [v])) by (apply nth_error_Some; congruence). rewrite app_length in H. simpl in H. lia.
        * rewrite !map_app, MAP, S3. simpl. now rewrite NEW.
  Qed.
  Lemma uniq_by_spec : forall vals, first_of_each_key fn vals (uniq_by eq_dec fn vals).
  Proof.
    intros vals. apply (uniq_loop_spec vals [] new_set []).
    - intros u. simpl. tauto.
    - exists []. split; [constructor|]. split; [|reflexivity]. intros i. split; [intros []|].
      intros (x & Hx & _). destruct i; discriminate.
  Qed.
  Lemma first_of_each_key_fun : forall vals (a b : list T), first_of_each_key fn vals a -> first_of_each_key fn vals b -> a = b.
  Proof.
    intros vals a b (p & P1 & P2 & P3) (q & Q1 & Q2 & Q3).
    assert (p = q).
    { assert (HI : forall i, In i p <-> In i q) by (intros; rewrite P2, Q2; tauto). clear - P1 Q1 HI.
      revert q Q1 HI. induction P1 as [|x p P1 IH Fx]; intros q Q1 HI.
      - destruct q as [|y q]; auto. elim (proj2 (HI y)). now left.
      - destruct Q1 as [|y q Q1 Fy]; [elim (proj1 (HI x)); now left|].
        rewrite Forall_forall in Fx, Fy. assert (x = y).
        { destruct (proj1 (HI x) (or_introl eq_refl)) as [->|Hx]; auto.
          destruct (proj2 (HI y) (or_introl eq_refl)) as [->|Hy]; auto.
          apply Fx in Hy. apply Fy in Hx. lia. }
        subst y. f_equal. apply IH; auto. intros i. split; intros Hi.
        + destruct (proj1 (HI i) (or_intror Hi)) as [->|]; auto. apply Fx in Hi. lia.
        + destruct (proj2 (HI i) (or_intror Hi)) as [->|]; auto. apply Fy in Hi. lia. }
    subst q. rewrite <- Q3 in P3. clear - P3. revert b P3. induction a as [|x a IH]; intros [|y b] E; try discriminate; auto.
    simpl in E. injection E as -> E. f_equal. auto.
  Qed.
End U.

(** ** Stack *)
Section St.
  Context {T : Type}.
  Lemma last_val_push : forall v (s : list (option T)), last_val (stack_push v s) = v.
  Proof.
    intros v s. unfold last_val, stack_push. rewrite app_length. simpl. rewrite app_nth2 by lia.
    replace (length s + 1 - 1 - length s) with 0 by lia. reflexivity.
  Qed.
  Lemma pop_push : forall v (s : list (option T)), stack_pop (stack_push v s) = (v, s).
  Proof.
    intros v s. unfold stack_pop. rewrite last_val_push. unfold stack_push. rewrite app_length. simpl.
    replace (length s + 1) with (S (length s)) by lia. cbn [Nat.eqb]. f_equal.
    replace (S (length s) - 1) with (length s) by lia. rewrite firstn_app, Nat.sub_diag, firstn_all. simpl. apply app_nil_r.
  Qed.
  Lemma top_push : forall v (s : list (option T)), stack_top (stack_push v s) = v.
  Proof.
    intros v s. unfold stack_top. rewrite last_val_push. unfold stack_push. rewrite app_length. simpl.
    now replace (length s + 1) with (S (length s)) by lia.
  Qed.
  Lemma stack_run_app : forall a b (s : list (option T)), stack_run (a ++ b) s =
      let '(o1, s1) := stack_run a s in let '(o2, s2) := stack_run b s1 in (o1 ++ o2, s2).
  Proof.
    induction a as [|o a IH]; intros b s; cbn [app stack_run].
    - now destruct (stack_run b s).
    - destruct (stack_step o s) as [out s1]. rewrite IH. destruct (stack_run a s1) as [o1 s2].
      now destruct (stack_run b s2).
  Qed.
  Lemma balanced_run : forall w, balanced w -> forall s : list (option T), snd (stack_run w s) = s.
  Proof.
    intros w H. induction H as [|w H IH|w H IH|v w1 w2 H1 IH1 H2 IH2]; intros s.
    - reflexivity.
    - cbn [stack_run stack_step]. specialize (IH s). destruct (stack_run w s). exact IH.
    - cbn [stack_run stack_step]. specialize (IH s). destruct (stack_run w s). exact IH.
    - cbn [stack_run stack_step]. rewrite stack_run_app. specialize (IH1 (stack_push v s)).
      destruct (stack_run w1 (stack_push v s)) as [o1 s1]. simpl in IH1. subst s1. cbn [stack_run stack_step].
      rewrite pop_push. specialize (IH2 s). destruct (stack_run w2 s). exact IH2.
  Qed.
End St.

(** ** Time ranges *)
Lemma ranges_spec : forall fuel t e i, (0 < i)%Z -> (e - t <= Z.of_nat fuel * i)%Z ->
    exists l, generate_time_ranges fuel t e i = Some l /\
      forall k, nth_error l k = if Z.ltb (t + Z.of_nat k * i) e then Some (t + Z.of_nat k * i)%Z else None.
Proof.
  induction fuel as [|fuel IH]; intros t e i Hi Hf; cbn [generate_time_ranges].
  - destruct (Z.ltb_spec t e) as [H|H]; [lia|]. exists []. split; [reflexivity|]. intros k.
    assert (0 <= Z.of_nat k * i)%Z by nia. destruct (Z.ltb_spec (t + Z.of_nat k * i) e); [lia|]. now destruct k.
  - destruct (Z.ltb_spec t e) as [H|H].
    + destruct (IH (t + i)%Z e i Hi) as (l & E & HN); [lia|]. rewrite E. exists (t :: l). split; [reflexivity|].
      intros [|k].
      * simpl. replace (t + 0)%Z with t by lia. destruct (Z.ltb_spec t e); [reflexivity|lia].
      * cbn [nth_error]. rewrite HN. replace (t + i + Z.of_nat k * i)%Z with (t + Z.of_nat (S k) * i)%Z by lia. reflexivity.
    + exists []. split; [reflexivity|]. intros k.
      assert (0 <= Z.of_nat k * i)%Z by nia. destruct (Z.ltb_spec (t + Z.of_nat k * i) e); [lia|]. now destruct k.
Qed.
Lemma ranges_diverge : forall fuel t e i, (i <= 0)%Z -> (t < e)%Z -> generate_time_ranges fuel t e i = None.
Proof.
  induction fuel as [|fuel IH]; intros t e i Hi Ht; cbn [generate_time_ranges]; destruct (Z.ltb_spec t e); try lia; auto.
  rewrite IH by lia. reflexivity.
Qed.
Lemma ranges_more_fuel : forall fuel fuel' t e i l, generate_time_ranges fuel t e i = Some l -> fuel <= fuel' ->
    generate_time_ranges fuel' t e i = Some l.
Proof.
  induction fuel as [|fuel IH]; intros [|fuel'] t e i l H Hf; cbn [generate_time_ranges] in *; destruct (Z.ltb t e); auto; try lia; try discriminate.
  destruct (generate_time_ranges fuel (t + i) e i) as [r|] eqn:E; [|discriminate].
  rewrite (IH fuel' _ _ _ r E) by lia. exact H.
Qed.
