From Coq Require Import String List NArith ZArith Bool Lia Arith.
From Verif Require Import Base Dec ExplainTree ExplainTreeProofs Otel TraceDiagram TraceDiagramSpec.
Import ListNotations.
Local Open Scope nat_scope.

Section DInd.
  Variable P : dnode -> Prop.
  Hypothesis HN : forall s cs, Forall P cs -> P (DNode s cs).
  Hypothesis HR : forall k s, P (DRepeat k s).
  Fixpoint dnode_ind' (n : dnode) : P n :=
    match n with
    | DNode s cs => HN s cs ((fix go l : Forall P l := match l with [] => Forall_nil _ | c :: l' => Forall_cons _ (dnode_ind' c) (go l') end) cs)
    | DRepeat k s => HR k s
    end.
End DInd.

(** ** Folding *)
Fixpoint fold_children (skip : nat) (l : list (tree vm_span)) {struct l} : list dnode :=
  match l with
  | [] => []
  | c :: l' =>
      match skip with
      | S k => fold_children k l'
      | 0 =>
          if is_last c then
            let n := S (count_repeated (svc c) l') in
            create_nodes n (svc c) ++ fold_children (n - 1) l'
          else to_trace_node c :: fold_children 0 l'
      end
  end.
Lemma to_trace_node_eq : forall v cs, to_trace_node (Node v cs) = DNode (v_service v) (fold_children 0 cs).
Proof. reflexivity. Qed.
Lemma fold_skip : forall l k, fold_children k l = fold_children 0 (skipn k l).
Proof.
  induction l as [|c l IH]; intros [|k]; try reflexivity. cbn [fold_children skipn]. apply IH.
Qed.
Lemma create_nodes_cases : forall n s, 1 <= n ->
  (n <= 4 /\ create_nodes n s = repeat (DNode s []) n) \/
  (5 <= n /\ create_nodes n s = [DNode s []; DNode s []; DNode s []; DRepeat (n - 3) s]).
Proof.
  intros n s H. destruct n as [|[|[|[|[|n]]]]]; [lia|left|left|left|left|right]; split; (lia || reflexivity).
Qed.
Lemma expand_create : forall n s, 1 <= n -> flat_map expand (create_nodes n s) = repeat (Call s []) n.
Proof.
  intros n s H. destruct (create_nodes_cases n s H) as [[L E]|[L E]]; rewrite E.
  - clear. induction n as [|n IH]; [reflexivity|]. cbn [repeat flat_map expand app]. now rewrite IH.
  - cbn [flat_map expand app]. rewrite app_nil_r. replace n with (S (S (S (n - 3)))) at 2 by lia. reflexivity.
Qed.
Lemma leaf_calls : forall c, is_last c = true -> calls_of c = Call (svc c) [].
Proof. intros [v [|x cs]] H; [reflexivity|discriminate H]. Qed.
Lemma counted : forall s l, map calls_of (firstn (count_repeated s l) l) = repeat (Call s []) (count_repeated s l).
Proof.
  intros s. induction l as [|c l IH]; [reflexivity|]. cbn [count_repeated].
  destruct (is_last c) eqn:E; [|reflexivity]. destruct (seqb s (svc c)) eqn:E2; [|reflexivity].
  apply seqb_eq in E2. subst s. cbn [firstn map repeat]. now rewrite IH, leaf_calls.
Qed.
Lemma count_bound : forall s l, count_repeated s l <= length l.
Proof.
  intros s. induction l as [|c l IH]; [apply Nat.le_refl|]. cbn [count_repeated length].
  destruct (is_last c), (seqb s (svc c)); lia.
Qed.
Lemma expand_fold : forall n l, length l <= n ->
  Forall (fun c => expand (to_trace_node c) = [calls_of c]) l -> flat_map expand (fold_children 0 l) = map calls_of l.
Proof.
  induction n as [|n IH]; intros l L H; (destruct l as [|c l]; [reflexivity|]); cbn [length] in L; [lia|].
  inversion H as [|? ? Hc Hl]; subst. cbn [fold_children]. destruct (is_last c) eqn:E.
  - cbv zeta. rewrite flat_map_app, expand_create by lia. rewrite fold_skip.
    cbn [Nat.sub]. rewrite Nat.sub_0_r.
    set (k := count_repeated (svc c) l). pose proof (counted (svc c) l) as HC. fold k in HC.
    rewrite IH.
    + rewrite <- (firstn_skipn k l) at 2. cbn [map repeat app]. rewrite map_app, HC, leaf_calls by exact E. reflexivity.
    + rewrite skipn_length. lia.
    + rewrite <- (firstn_skipn k l) in Hl. apply Forall_app in Hl. tauto.
  - cbn [flat_map map]. rewrite Hc, IH; [reflexivity|lia|exact Hl].
Qed.
Lemma expand_trace : forall t, expand (to_trace_node t) = [calls_of t].
Proof.
  apply tree_ind'. intros v cs H. rewrite to_trace_node_eq. cbn [expand calls_of].
  rewrite (expand_fold (length cs) cs (Nat.le_refl _) H). reflexivity.
Qed.

Inductive good : option gostring -> list dnode -> Prop :=
| good_nil : forall p, good p []
| good_open : forall p s x xs ds, good None ds -> good p (DNode s (x :: xs) :: ds)
| good_run : forall p n s ds, p <> Some s -> 1 <= n -> good (Some s) ds -> good p (create_nodes n s ++ ds).
Definition not_first (s : gostring) (l : list (tree vm_span)) : Prop :=
  match l with c :: _ => is_last c = true -> svc c <> s | [] => True end.
Lemma after_run : forall s l, not_first s (skipn (count_repeated s l) l).
Proof.
  intros s. induction l as [|c l IH]; [exact I|]. cbn [count_repeated].
  destruct (is_last c) eqn:E.
  - destruct (seqb s (svc c)) eqn:E2; [exact IH|]. intros _ K. rewrite K, seqb_refl in E2. discriminate E2.
  - cbn. rewrite E. discriminate.
Qed.
Lemma create_nodes_ne : forall n s, 1 <= n -> exists tl, create_nodes n s = DNode s [] :: tl.
Proof.
  intros n s H. destruct (create_nodes_cases n s H) as [[L E]|[L E]]; rewrite E; [|eauto].
  destruct n as [|n]; [lia|]. cbn. eauto.
Qed.
Lemma fold_ne : forall c l, exists d ds, fold_children 0 (c :: l) = d :: ds.
Proof.
  intros c l. cbn [fold_children]. destruct (is_last c); [|eauto]. cbv zeta.
  destruct (create_nodes_ne (S (count_repeated (svc c) l)) (svc c)) as [tl ->]; [lia|]. cbn. eauto.
Qed.
Lemma fold_good : forall n l p, length l <= n ->
  match p with Some s => not_first s l | None => True end -> good p (fold_children 0 l).
Proof.
  induction n as [|n IH]; intros l p L H; (destruct l as [|c l]; [constructor|]); cbn [length] in L; [lia|].
  cbn [fold_children]. destruct (is_last c) eqn:E.
  - cbv zeta. apply good_run.
    + destruct p as [s|]; [|discriminate]. intros K. injection K as K. now apply (H E).
    + lia.
    + rewrite fold_skip. cbn [Nat.sub]. rewrite Nat.sub_0_r. apply IH; [rewrite skipn_length; lia|]. apply after_run.
  - destruct c as [v [|x cs]]; [discriminate E|]. rewrite to_trace_node_eq.
    destruct (fold_ne x cs) as (d & ds & ->). apply good_open. apply IH; [lia|exact I].
Qed.
Lemma fold_drawn : forall n l c, length l <= n -> In c (fold_children 0 l) ->
  c = to_trace_node (Node (Build_vm_span [] [] 0 0 (d_service c)) []) \/ (exists k s, c = DRepeat k s) \/ exists t, In t l /\ c = to_trace_node t.
Proof.
  induction n as [|n IH]; intros l c L H; (destruct l as [|x l]; [contradiction H|]); cbn [length] in L; [lia|].
  cbn [fold_children] in H. destruct (is_last x) eqn:E.
  - cbv zeta in H. apply in_app_or in H as [H|H].
    + unfold create_nodes in H. apply in_map_iff in H as (j & <- & _).
      destruct (Nat.ltb j 3); [now left|]. destruct (Nat.eqb _ _); [now left|right; left; eauto].
    + rewrite fold_skip in H. apply IH in H; [|rewrite skipn_length; lia].
      destruct H as [H|[H|(t & H1 & H2)]]; [now left|now right; left|].
      right. right. exists t. split; [|exact H2]. right.
      rewrite <- (firstn_skipn (S (count_repeated (svc x) l) - 1) l). apply in_or_app. now right.
  - destruct H as [<-|H]; [right; right; exists x; split; [now left|reflexivity]|].
    apply IH in H; [|lia]. destruct H as [H|[H|(t & H1 & H2)]]; [now left|now right; left|].
    right. right. exists t. split; [now right|exact H2].
Qed.
Lemma drawn_good : forall t s ds, drawn_in (DNode s ds) (to_trace_node t) -> good None ds.
Proof.
  apply (tree_ind' (fun t => forall s ds, drawn_in (DNode s ds) (to_trace_node t) -> good None ds)).
  intros v cs IH s ds H. rewrite to_trace_node_eq in H. inversion H as [n E1|n s' cs' c Hc Hd E1 E2]; subst.
  - apply (fold_good (length cs)); [apply Nat.le_refl|exact I].
  - destruct (fold_drawn _ _ _ (Nat.le_refl _) Hc) as [E|[(k & s' & E)|(t & Ht & E)]].
    + rewrite E in Hd. inversion Hd as [n E1|n s' cs' c' Hc' Hd' E1 E2]; subst; [constructor|contradiction Hc'].
    + subst c. inversion Hd.
    + subst c. rewrite Forall_forall in IH. now apply (IH t Ht s ds).
Qed.
Lemma create_stands : forall n s c, 1 <= n -> In c (create_nodes n s) -> forall s', stands_for s' c -> s' = s.
Proof.
  intros n s c H Hc s' [-> |[k ->]]; unfold create_nodes in Hc; apply in_map_iff in Hc as (j & E & _);
    destruct (Nat.ltb j 3), (Nat.eqb (j + 1) n); congruence.
Qed.
Lemma good_head : forall s d ds, good (Some s) (d :: ds) -> ~ stands_for s d.
Proof.
  intros s d ds H [-> |[k ->]]; inversion H as [|p s0 x xs ds0 H0 E1 E2|p n s0 ds0 Hp Hn H0 E1 E2]; subst.
  - destruct (create_nodes_ne n s0 Hn) as [tl E]. rewrite E in E2. injection E2 as <- _. now apply Hp.
  - destruct (create_nodes_ne n s0 Hn) as [tl E]. rewrite E in E2. discriminate E2.
Qed.
Lemma create_length : forall n s, length (create_nodes n s) <= 4.
Proof. intros n s. unfold create_nodes. rewrite map_length, seq_length. lia. Qed.
Lemma good_runs : forall p ds, good p ds -> forall a m b s, ds = a ++ m ++ b -> Forall (stands_for s) m -> length m <= 4.
Proof.
  intros p ds H. induction H as [p|p s0 x xs ds H IH|p n s0 ds Hp Hn H IH]; intros a m b s E F.
  - symmetry in E. apply app_eq_nil in E as [_ E]. apply app_eq_nil in E as [-> _]. cbn. lia.
  - destruct a as [|y a].
    + destruct m as [|y m]; [cbn; lia|]. injection E as <- _.
      inversion F as [|? ? [K|[k K]] _]; discriminate K.
    + injection E as _ E. now apply (IH a m b s).
  - remember (create_nodes n s0) as c eqn:Ec.
    assert ((exists a', a = c ++ a' /\ ds = a' ++ m ++ b) \/ (exists c', c = a ++ c' /\ c' <> [] /\ c' ++ ds = m ++ b)) as [(a' & -> & E')|(c' & -> & NE & E')].
    { clear - E. revert a E. induction c as [|y c IH]; intros a E.
      - left. exists a. now split.
      - destruct a as [|z a].
        + right. exists (y :: c). split; [reflexivity|]. split; [discriminate|exact E].
        + injection E as -> E. destruct (IH a E) as [(a' & -> & E')|(c' & -> & NE & E')].
          * left. exists a'. now split.
          * right. exists c'. now split. }
    + now apply (IH a' m b s).
    + assert (length c' <= 4) as Lc.
      { pose proof (create_length n s0) as K. rewrite <- Ec, app_length in K. lia. }
      assert (forall y, In y c' -> forall s', stands_for s' y -> s' = s0) as Sc.
      { intros y Hy. apply (create_stands n s0 y Hn). rewrite <- Ec. apply in_or_app. now right. }
      clear Ec.
      assert (m = [] \/ length m <= length c' \/ exists d tl r, m = c' ++ d :: tl /\ ds = d :: r) as K.
      { clear - E'. revert m E'. induction c' as [|y c' IH]; intros m E'.
        - destruct m as [|d tl]; [now left|]. right. right. exists d, tl, (tl ++ b). now split.
        - destruct m as [|z m]; [now left|]. injection E' as -> E'. destruct (IH m E') as [->|[K|(d & tl & r & -> & ->)]].
          + right. left. cbn. lia.
          + right. left. cbn. lia.
          + right. right. exists d, tl, r. now split. }
      destruct K as [->|[K|(d & tl & r & -> & ->)]]; [cbn; lia|lia|].
      exfalso. apply Forall_app in F as [F1 F2]. inversion F2 as [|? ? Fd _]; subst.
      destruct c' as [|y c']; [now apply NE|]. inversion F1 as [|? ? Fy _]; subst.
      assert (s = s0) by (apply (Sc y); [now left|exact Fy]). subst s. now apply (good_head s0 d r).
Qed.
Lemma good_repeat : forall p ds, good p ds -> forall a k s b, ds = a ++ DRepeat k s :: b ->
  2 <= k /\ exists a', a = a' ++ [DNode s []; DNode s []; DNode s []].
Proof.
  intros p ds H. induction H as [p|p s0 x xs ds H IH|p n s0 ds Hp Hn H IH]; intros a k s b E.
  - now apply app_cons_not_nil in E.
  - destruct a as [|y a]; [discriminate E|]. injection E as <- E. destruct (IH a k s b E) as [K [a' ->]].
    split; [exact K|]. exists (DNode s0 (x :: xs) :: a'). reflexivity.
  - assert ((exists a', a = create_nodes n s0 ++ a' /\ ds = a' ++ DRepeat k s :: b) \/
            (exists c', create_nodes n s0 = a ++ DRepeat k s :: c')) as [(a' & -> & E')|(c' & Ec)].
    { clear - E. remember (create_nodes n s0) as c eqn:Ec. clear Ec. revert a E. induction c as [|y c IH]; intros a E.
      - left. exists a. now split.
      - destruct a as [|z a].
        + injection E as -> E. right. exists c. reflexivity.
        + injection E as -> E. destruct (IH a E) as [(a' & -> & E')|(c' & ->)].
          * left. exists a'. now split.
          * right. exists c'. reflexivity. }
    + destruct (IH a' k s b E') as [K [a2 ->]]. split; [exact K|]. exists (create_nodes n s0 ++ a2). now rewrite app_assoc.
    + destruct (create_nodes_cases n s0 Hn) as [[L E2]|[L E2]]; rewrite E2 in Ec.
      * exfalso. assert (In (DRepeat k s) (repeat (DNode s0 []) n)) as I by (rewrite Ec; apply in_or_app; right; now left).
        apply repeat_spec in I. discriminate I.
      * destruct a as [|y1 [|y2 [|y3 [|y4 a]]]]; cbn [app] in Ec; try discriminate Ec.
        -- injection Ec as <- <- <- <- <- _. split; [lia|]. exists []. reflexivity.
        -- exfalso. injection Ec as _ _ _ _ Ec. now apply app_cons_not_nil in Ec.
Qed.
