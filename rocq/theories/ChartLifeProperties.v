(** C149: the charts of the components. *)
From Coq Require Import String List NArith ZArith Bool Lia Arith.
From Verif Require Import Base ChartLife ChartLifeSpec ChartLifeProofs ChartLifeRun.
Import ListNotations.
Local Open Scope nat_scope.
Local Open Scope list_scope.

(** ** The specification *)
(** Whatever happens, there is one list of components for it. *)
Theorem after_defined : forall B (es : list (@happening B)), exists l, after es l /\ forall l', after es l' -> l' = l.
Proof.
  intros B es. destruct (after_total es) as (l & H). exists l. split; [exact H|]. intros l' H'. revert l' H'.
  assert (forall (a z a' z' : list (@shown B)) s s', a ++ s :: z = a' ++ s' :: z' -> length a = length a' -> a = a' /\ s = s' /\ z = z') as SPL.
  { intros a. induction a as [|x a IH]; intros z [|x' a'] z' s s' E L; try discriminate; cbn [app length] in *.
    - injection E as -> ->. auto.
    - injection E as -> E. destruct (IH _ _ _ _ _ E ltac:(lia)) as (-> & -> & ->). auto. }
  assert (forall (es es' : list (@happening B)) e e', es ++ [e] = es' ++ [e'] -> es = es' /\ e = e') as LAST by (intros; now apply app_inj_tail).
  induction H as [|es l k b h t H IH|es a s z b H IH|es a s z H IH|es l i b H IH LE|es l i H IH LE]; intros l' H'.
  - inversion H' as [E|es' l0 k' b' h' t' H0 E|es' a' s' z' b' H0 E|es' a' s' z' H0 E|es' l0 i' b' H0 L0 E|es' l0 i' H0 L0 E]; try reflexivity; destruct es'; discriminate.
  - inversion H' as [E|es' l0 k' b' h' t' H0 E|es' a' s' z' b' H0 E|es' a' s' z' H0 E|es' l0 i' b' H0 L0 E|es' l0 i' H0 L0 E]; [destruct es; discriminate|..];
      (apply LAST in E as [-> E]; try discriminate). injection E as -> -> -> ->. now rewrite (IH _ H0).
  - inversion H' as [E|es' l0 k' b' h' t' H0 E|es' a' s' z' b' H0 E|es' a' s' z' H0 E|es' l0 i' b' H0 L0 E|es' l0 i' H0 L0 E]; [destruct es; discriminate|..];
      (apply LAST in E as [-> E]; try discriminate).
    + injection E as E ->. specialize (IH _ H0). destruct (SPL _ _ _ _ _ _ IH E) as (-> & -> & ->). reflexivity.
    + injection E as E ->. subst l0. apply IH in H0. subst l'. rewrite app_length in L0. cbn [length] in L0. lia.
  - inversion H' as [E|es' l0 k' b' h' t' H0 E|es' a' s' z' b' H0 E|es' a' s' z' H0 E|es' l0 i' b' H0 L0 E|es' l0 i' H0 L0 E]; [destruct es; discriminate|..];
      (apply LAST in E as [-> E]; try discriminate).
    + injection E as E. specialize (IH _ H0). destruct (SPL _ _ _ _ _ _ IH E) as (-> & -> & ->). reflexivity.
    + injection E as E. subst l0. apply IH in H0. subst l'. rewrite app_length in L0. cbn [length] in L0. lia.
  - inversion H' as [E|es' l0 k' b' h' t' H0 E|es' a' s' z' b' H0 E|es' a' s' z' H0 E|es' l0 i' b' H0 L0 E|es' l0 i' H0 L0 E]; [destruct es; discriminate|..];
      (apply LAST in E as [-> E]; try discriminate).
    + injection E as E ->. apply IH in H0. rewrite <- H0, app_length in LE. cbn [length] in LE. lia.
    + subst l0. now apply IH.
  - inversion H' as [E|es' l0 k' b' h' t' H0 E|es' a' s' z' b' H0 E|es' a' s' z' H0 E|es' l0 i' b' H0 L0 E|es' l0 i' H0 L0 E]; [destruct es; discriminate|..];
      (apply LAST in E as [-> E]; try discriminate).
    + injection E as E. apply IH in H0. rewrite <- H0, app_length in LE. cbn [length] in LE. lia.
    + subst l0. now apply IH.
Qed.

(** ** Charts *)
Fixpoint lookb {B} (n : nat) (h : @heap B) (v : js) (t : opt) : bool :=
  match n, v, t with
  | S n', JLit a, OLit b => seqb a b
  | S n', JRef o, OObj l =>
      match nth_error h o with
      | Some c =>
          (fix go (c : obj) (l : list (gostring * opt)) : bool :=
             match c, l with
             | [], [] => true
             | x :: c', y :: l' => seqb (fst x) (fst y) && lookb n' h (snd x) (snd y) && go c' l'
             | _, _ => false
             end) c l
      | None => false
      end
  | _, _, _ => false
  end.
Lemma lookb_looks : forall B n (h more : @heap B) v t, lookb n h v t = true -> looks (h ++ more) v t.
Proof.
  intros B n. induction n as [|n IH]; intros h more v t H; [discriminate|]. cbn [lookb] in H. destruct v as [a| |o|i m|b], t as [b'|l]; try discriminate.
  - destruct (seqb_spec a b') as [-> |]; [constructor|discriminate].
  - destruct (nth_error h o) as [c|] eqn:C; [|discriminate]. apply lk_obj with c; [now apply nth_ext|]. clear C. revert l H. induction c as [|x c IHc]; intros [|y l] H; try discriminate; constructor.
    + apply andb_prop in H as [H _]. apply andb_prop in H as [H1 H2]. split; [now destruct (seqb_spec (fst x) (fst y))|now apply IH].
    + apply andb_prop in H as [_ H]. now apply IHc.
Qed.
Lemma loaded_looks : forall B k, lookb 8 (fst (@loaded B)) (default_ref k) (default_option k) = true.
Proof. intros B []; vm_compute; reflexivity. Qed.
Lemma kept_looks : forall B (h : @heap B) k, kept h -> looks h (default_ref k) (default_option k).
Proof. intros B h k (more & ->). apply lookb_looks with 8. apply loaded_looks. Qed.
Section Theorems.
  Context {B : Type} (es : list (@happening B)) (l : list (@shown B)).
  Hypothesis AFTER : after es l.
  (** No drawing fails, and for each component: there is one chart for each drawing; the last
      one shows the bars drawn last with the functions of the component's own GrChart; all
      before were destroyed, once; the last one was destroyed, once, if it is that of a plan
      and the component was closed, and never otherwise. *)
  Theorem charts_follow : exists w, happens start es = Ok w /\ length (w_comps w) = length l /\
    forall i s, nth_error l i = Some s ->
      length (filter (fun x => Nat.eqb (ax_elm x) i) (w_charts w)) = sh_drawn s /\
      exists c x, nth_error (w_charts w) c = Some x /\ ax_elm x = i /\ options_of (w_heap w) (sh_kind s) i (sh_bars s) (sh_height s) (sh_title s) (ax_option x) /\
        (ax_destroyed x = 1 /\ sh_kind s = KPlan /\ sh_open s = false \/ ax_destroyed x = 0 /\ (sh_kind s <> KPlan \/ sh_open s = true)) /\
        forall m y, nth_error (w_charts w) m = Some y -> ax_elm y = i -> m <> c -> ax_destroyed y = 1.
  Proof.
    destruct (after_runs es l AFTER) as (w & E & HH & LC & G & BD). exists w. split; [exact E|]. split; [exact LC|]. intros i s L.
    destruct (G i s L) as (c & x & C & X & EX & D & O & U & N). split; [exact N|]. exists c, x. split; [exact X|]. split; [exact EX|]. split; [exact O|]. split; [|exact U].
    rewrite D. destruct (sh_kind s), (sh_open s); cbn [is_plan negb andb]; try (right; split; [reflexivity|]; try (right; reflexivity); left; discriminate). left. auto.
  Qed.
  (** Each chart is on the element of a component; one is alive in each open component. *)
  Theorem charts_alive : forall w, happens start es = Ok w ->
    (forall x, In x (w_charts w) -> exists s, nth_error l (ax_elm x) = Some s /\ ax_destroyed x <= 1) /\
    (forall i s, nth_error l i = Some s -> sh_open s = true -> exists x, forall y, In y (w_charts w) /\ ax_elm y = i /\ ax_destroyed y = 0 <-> y = x).
  Proof.
    intros w E. destruct (after_runs es l AFTER) as (w' & E' & HH & LC & G & BD). rewrite E in E'. injection E' as <-. split.
    - intros x X. apply In_nth_error in X as (m & X). pose proof (BD m x X) as LT. destruct (nth_error l (ax_elm x)) as [s|] eqn:L; [|apply nth_error_None in L; lia]. exists s. split; [reflexivity|].
      destruct (G _ s L) as (c & x' & C & X' & EX & D & O & U & N). destruct (Nat.eq_dec m c) as [-> | NE].
      + rewrite X in X'. injection X' as <-. rewrite D. destruct (is_plan (sh_kind s) && negb (sh_open s)); lia.
      + rewrite (U m x X eq_refl NE). lia.
    - intros i s L OP. destruct (G i s L) as (c & x & C & X & EX & D & O & U & N). exists x. intros y. split.
      + intros (Y & EY & DY). apply In_nth_error in Y as (m & Y). destruct (Nat.eq_dec m c) as [-> | NE]; [congruence|]. rewrite (U m y Y EY NE) in DY. discriminate.
      + intros ->. split; [now apply nth_error_In with c|]. split; [exact EX|]. rewrite D, OP. cbn [negb]. now rewrite andb_false_r.
  Qed.
  (** The constants of the modules are never changed. *)
  Theorem defaults_kept : forall w k, happens start es = Ok w -> looks (w_heap w) (default_ref k) (default_option k).
  Proof. intros w k E. destruct (after_runs es l AFTER) as (w' & E' & HH & _). rewrite E in E'. injection E' as <-. now apply kept_looks. Qed.
  (** Closing a component of plans leaves no chart alive; closing another one leaves one. *)
  Theorem closed_charts : forall w i s, happens start es = Ok w -> nth_error l i = Some s -> sh_open s = false ->
    (sh_kind s = KPlan -> forall x, In x (w_charts w) -> ax_elm x = i -> ax_destroyed x = 1) /\
    (sh_kind s <> KPlan -> exists x, In x (w_charts w) /\ ax_elm x = i /\ ax_destroyed x = 0).
  Proof.
    intros w i s E L OP. destruct charts_follow as (w' & E' & _ & F). rewrite E in E'. injection E' as <-. destruct (F i s L) as (_ & c & x & X & EX & _ & D & U). split.
    - intros K y Y EY. apply In_nth_error in Y as (m & Y). destruct (Nat.eq_dec m c) as [-> | NE]; [|now apply (U m)]. rewrite X in Y. injection Y as <-.
      destruct D as [[D _]|[_ [D|D]]]; [exact D|congruence|congruence].
    - intros K. exists x. split; [now apply nth_error_In with c|]. split; [exact EX|]. destruct D as [(_ & D & _)|[D _]]; [congruence|exact D].
  Qed.
End Theorems.

(** The tabs of Performance Insights opened in turn: two charts are drawn again, one tab
    is left for the other; and a plan. *)
Definition ex_happenings : list (@happening gostring) :=
  [Open KTop (lit "a") [] []; Open KLine (lit "b") [] []; Redraw 1 (lit "c"); Close 0; Close 1; Open KTokTop (lit "d") [] []; Redraw 0 (lit "e");
   Open KPlan (lit "p") (lit "160px") (lit "EXPLAIN"); Close 3].
Definition ex_components : list (@shown gostring) :=
  [{| sh_kind := KTop; sh_bars := lit "a"; sh_height := []; sh_title := []; sh_drawn := 1; sh_open := false |}; {| sh_kind := KLine; sh_bars := lit "c"; sh_height := []; sh_title := []; sh_drawn := 2; sh_open := false |};
   {| sh_kind := KTokTop; sh_bars := lit "d"; sh_height := []; sh_title := []; sh_drawn := 1; sh_open := true |}; {| sh_kind := KPlan; sh_bars := lit "p"; sh_height := lit "160px"; sh_title := lit "EXPLAIN"; sh_drawn := 1; sh_open := false |}].
Lemma ex_after : after ex_happenings ex_components.
Proof.
  change ex_happenings with (((((((((([] ++ [Open KTop (lit "a") [] []]) ++ [Open KLine (lit "b") [] []]) ++ [Redraw 1 (lit "c")]) ++ [Close 0]) ++ [Close 1]) ++ [Open KTokTop (lit "d") [] []]) ++ [Redraw 0 (lit "e")]) ++
    [Open KPlan (lit "p") (lit "160px") (lit "EXPLAIN")]) ++ [Close 3])).
  set (c0 := {| sh_kind := KTop; sh_bars := lit "a"; sh_height := []; sh_title := []; sh_drawn := 1; sh_open := true |}). set (c1 := {| sh_kind := KLine; sh_bars := lit "b"; sh_height := []; sh_title := []; sh_drawn := 1; sh_open := true |}).
  set (c2 := {| sh_kind := KTokTop; sh_bars := lit "d"; sh_height := []; sh_title := []; sh_drawn := 1; sh_open := true |}). set (c3 := {| sh_kind := KPlan; sh_bars := lit "p"; sh_height := lit "160px"; sh_title := lit "EXPLAIN"; sh_drawn := 1; sh_open := true |}).
  pose proof (af_open [] [] KTop (lit "a") [] [] af_nil) as H. apply (af_open _ _ KLine (lit "b") [] []) in H. apply (af_redraw _ [c0] c1 [] (lit "c")) in H.
  apply (af_close _ [] c0 [drawn_again (lit "c") c1]) in H. apply (af_close _ [closed c0] (drawn_again (lit "c") c1) []) in H. apply (af_open _ _ KTokTop (lit "d") [] []) in H.
  apply (af_redraw _ [] (closed c0) [closed (drawn_again (lit "c") c1); c2] (lit "e")) in H. apply (af_open _ _ KPlan (lit "p") (lit "160px") (lit "EXPLAIN")) in H.
  apply (af_close _ [closed c0; closed (drawn_again (lit "c") c1); c2] c3 []) in H. exact H.
Qed.
Definition ex_deaths : list (nat * nat) := match happens start ex_happenings with Ok w => map (fun x => (ax_elm x, ax_destroyed x)) (w_charts w) | _ => [] end.
Example charts_follow_nonvacuous : after ex_happenings ex_components /\ ex_deaths = [(0, 0); (1, 1); (1, 0); (2, 0); (3, 1)].
Proof. split; [apply ex_after|vm_compute; reflexivity]. Qed.
(** So charts of a tab that was left are never destroyed. *)
Theorem alive_open_refuted : ~ (forall B (es : list (@happening B)) l w, after es l -> happens start es = Ok w ->
  forall x, In x (w_charts w) -> ax_destroyed x = 0 -> exists s, nth_error l (ax_elm x) = Some s /\ sh_open s = true).
Proof.
  intros H. destruct (charts_follow ex_happenings ex_components ex_after) as (w & E & _).
  destruct (proj2 (closed_charts _ _ ex_after w 0 _ E eq_refl eq_refl)) as (x & X & EX & DX); [cbn [sh_kind]; discriminate|].
  destruct (H _ _ _ w ex_after E x X DX) as (s & L & O). rewrite EX in L. cbn [ex_components nth_error] in L. injection L as <-. discriminate O.
Qed.

Print Assumptions after_defined.
Print Assumptions charts_follow.
Print Assumptions charts_alive.
Print Assumptions defaults_kept.
Print Assumptions closed_charts.
Print Assumptions alive_open_refuted.
