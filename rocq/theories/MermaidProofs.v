From Coq Require Import String List NArith ZArith Bool Lia Arith.
From Verif Require Import Base Dec ExplainTree ExplainTreeProofs Otel TraceDiagram TraceDiagramSpec TraceDiagramProofs.
Import ListNotations.
Local Open Scope nat_scope.

(** ** Events of a drawn tree *)
Definition more_text (k : nat) : gostring := lit "More " ++ dec_of_N (N.of_nat k) ++ lit " times...".
Definition start_events (from : gostring) (n : dnode) : list event :=
  match n with
  | DNode s _ => [Msg from s s]
  | DRepeat k to => Msg from to (more_text k) :: repeat (Msg from to []) (Nat.min k 3 - 1)
  end.
Fixpoint events_of (n : dnode) : list event :=
  match n with
  | DRepeat _ _ => []
  | DNode s cs => flat_map (fun c =>
      start_events s c ++ (if has_child c then [Act (d_service c)] else []) ++ events_of c ++
      (if has_child c then [Msg (d_service c) s s; Deact (d_service c)] else [])) cs
  end.
Definition line_of (e : event) : gostring :=
  match e with
  | Msg a b t => a ++ lit "->>" ++ b ++ lit ": " ++ t
  | Act s => lit "activate " ++ s
  | Deact s => lit "deactivate " ++ s
  end.
Definition text_of (es : list event) : gostring := concat (map (fun e => line_of e ++ lf) es).
Lemma text_of_app : forall a b, text_of (a ++ b) = text_of a ++ text_of b.
Proof. intros a b. unfold text_of. now rewrite map_app, concat_app. Qed.

Inductive wf : dnode -> Prop :=
| wf_node : forall s cs, drawable s -> Forall wf cs -> wf (DNode s cs)
| wf_repeat : forall k s, 1 <= k -> drawable s -> wf (DRepeat k s).

Lemma start_text : forall from n, wf n -> start_arrow from n ++ lf = text_of (start_events from n).
Proof.
  intros from n H. destruct H as [s cs _ _|k s Hk _].
  - cbn [start_events text_of map concat start_arrow]. unfold text_of. cbn [map concat line_of]. now rewrite app_nil_r.
  - unfold start_arrow, start_events, more_text. destruct k as [|[|[|k]]]; [lia| | |].
    + cbn [Nat.min seq map Nat.eqb join Nat.sub repeat]. unfold text_of. cbn [map concat line_of]. now rewrite app_nil_r, <- !app_assoc.
    + cbn [Nat.min seq map Nat.eqb join Nat.sub repeat]. unfold text_of. cbn [map concat line_of]. rewrite !app_nil_r, <- !app_assoc. reflexivity.
    + replace (Nat.min (S (S (S k))) 3) with 3 by lia.
      cbn [Nat.min seq map Nat.eqb join Nat.sub repeat]. unfold text_of. cbn [map concat line_of]. rewrite !app_nil_r, <- !app_assoc. reflexivity.
Qed.
Lemma rec_text : forall n, wf n -> mermaid_rec n = text_of (events_of n).
Proof.
  apply (dnode_ind' (fun n => wf n -> mermaid_rec n = text_of (events_of n))); [|reflexivity].
  intros s cs IH H. inversion H as [s' cs' _ Hcs|]; subst.
  cbn [mermaid_rec events_of]. induction cs as [|c cs IHcs]; [reflexivity|].
  inversion IH as [|? ? IH1 IH2]; inversion Hcs as [|? ? Hc Hcs']; subst. cbn [map concat flat_map].
  rewrite text_of_app, <- (IHcs IH2); [|inversion H; constructor; assumption|exact Hcs']. f_equal.
  rewrite (IH1 Hc), !text_of_app, <- start_text, <- !app_assoc by exact Hc.
  f_equal. f_equal. destruct (has_child c) eqn:E.
  - destruct c as [s2 cs2|k s2]; [|discriminate E]. cbn [end_arrow d_service].
    set (mid := text_of (events_of (DNode s2 cs2))).
    unfold text_of. cbn [map concat line_of]. rewrite !app_nil_r, <- !app_assoc. reflexivity.
  - reflexivity.
Qed.

(** ** Reading lines *)
Lemma lines_one : forall l acc s, ~ In 10%N l -> lines_of acc (l ++ 10%N :: s) = (acc ++ l) :: lines_of [] s.
Proof.
  induction l as [|c l IH]; intros acc s H; cbn [app lines_of].
  - now rewrite app_nil_r.
  - destruct (N.eqb_spec c 10) as [->|N]; [exfalso; apply H; now left|].
    rewrite IH by (intros K; apply H; now right). now rewrite <- app_assoc.
Qed.
Lemma lines_text : forall es, Forall (fun e => ~ In 10%N (line_of e)) es -> lines_of [] (text_of es) = map line_of es ++ [[]].
Proof.
  induction 1 as [|e es H _ IH]; [reflexivity|]. unfold text_of. cbn [map concat]. rewrite <- app_assoc.
  change (lf ++ ?x) with (10%N :: x). rewrite lines_one by exact H. fold (text_of es). now rewrite IH.
Qed.
Lemma cut_arrow : forall a r, cut (lit "->>") a = None -> cut (lit "->>") (a ++ lit "->>" ++ r) = Some (a, r).
Proof.
  change (lit "->>") with [45%N; 62%N; 62%N].
  induction a as [|c a IH]; intros r H; [reflexivity|].
  cbn [cut] in H. cbn [app cut]. cbn [app] in IH.
  assert (starts [45%N; 62%N; 62%N] (c :: a ++ 45%N :: 62%N :: 62%N :: r) = None) as E.
  { cbn [starts] in *. destruct (45 =? c)%N; [|reflexivity].
    destruct a as [|d a]; [reflexivity|]. cbn [app]. destruct (62 =? d)%N; [|reflexivity].
    destruct a as [|e a]; [reflexivity|]. cbn [app]. destruct (62 =? e)%N; [discriminate H|reflexivity]. }
  rewrite E. rewrite IH; [reflexivity|].
  destruct (starts _ (c :: a)); [discriminate H|]. destruct (cut _ a) as [[x y]|]; [discriminate H|reflexivity].
Qed.
Lemma cut_colon : forall a r, cut (lit ": ") a = None -> cut (lit ": ") (a ++ lit ": " ++ r) = Some (a, r).
Proof.
  change (lit ": ") with [58%N; 32%N].
  induction a as [|c a IH]; intros r H; [reflexivity|].
  cbn [cut] in H. cbn [app cut]. cbn [app] in IH.
  assert (starts [58%N; 32%N] (c :: a ++ 58%N :: 32%N :: r) = None) as E.
  { cbn [starts] in *. destruct (58 =? c)%N; [|reflexivity].
    destruct a as [|d a]; [reflexivity|]. cbn [app]. destruct (32 =? d)%N; [discriminate H|reflexivity]. }
  rewrite E. rewrite IH; [reflexivity|].
  destruct (starts _ (c :: a)); [discriminate H|]. destruct (cut _ a) as [[x y]|]; [discriminate H|reflexivity].
Qed.
Definition ok_event (e : event) : Prop :=
  match e with
  | Msg a b t => drawable a /\ drawable b /\ ~ In 10%N t
  | Act s | Deact s => drawable s
  end.
Lemma read_line_of : forall e, ok_event e -> read_line (line_of e) = Some e.
Proof.
  intros [a b t|s|s] H; unfold read_line, line_of.
  - destruct H as ((_ & Ha & _) & (_ & _ & Hb & _) & _). rewrite cut_arrow by exact Ha. now rewrite cut_colon.
  - destruct H as (_ & Ha & _).
    assert (cut (lit "->>") (lit "activate " ++ s) = None) as E by (cbn -[cut] in *; cbn [cut starts]; cbn; cbn in Ha; now rewrite Ha).
    rewrite E. reflexivity.
  - destruct H as (_ & Ha & _).
    assert (cut (lit "->>") (lit "deactivate " ++ s) = None) as E by (cbn -[cut] in *; cbn [cut starts]; cbn; cbn in Ha; now rewrite Ha).
    rewrite E. reflexivity.
Qed.
Lemma no_lf_app : forall a b, ~ In 10%N a -> ~ In 10%N b -> ~ In 10%N (a ++ b).
Proof. intros a b Ha Hb H. apply in_app_or in H as [H|H]; auto. Qed.
Lemma lit_no_lf : forall s, existsb (N.eqb 10) s = false -> ~ In 10%N s.
Proof.
  intros s H K. assert (existsb (N.eqb 10) s = true) as E by (apply existsb_exists; exists 10%N; now split).
  congruence.
Qed.
Lemma line_no_lf : forall e, ok_event e -> ~ In 10%N (line_of e).
Proof.
  intros [a b t|s|s] H; cbn [line_of].
  - destruct H as ((Ha & _) & (Hb & _) & Ht).
    apply no_lf_app; [exact Ha|]. apply no_lf_app; [now apply lit_no_lf|]. apply no_lf_app; [exact Hb|].
    apply no_lf_app; [now apply lit_no_lf|exact Ht].
  - apply no_lf_app; [now apply lit_no_lf|apply H].
  - apply no_lf_app; [now apply lit_no_lf|apply H].
Qed.
Lemma read_lines_of : forall es, Forall ok_event es -> read_lines (map line_of es ++ [[]]) = Some es.
Proof.
  induction 1 as [|e es H _ IH]; [reflexivity|].
  cbn [map app]. destruct (map line_of es ++ [[]]) as [|l ls] eqn:E.
  - destruct (map line_of es); discriminate E.
  - change (read_lines (line_of e :: l :: ls)) with
      (match read_line (line_of e), read_lines (l :: ls) with Some e0, Some es0 => Some (e0 :: es0) | _, _ => None end).
    now rewrite read_line_of, IH by exact H.
Qed.
Lemma more_no_lf : forall k, ~ In 10%N (more_text k).
Proof.
  intros k. unfold more_text. apply no_lf_app; [now apply lit_no_lf|]. apply no_lf_app; [|now apply lit_no_lf].
  intros H. pose proof (dec_of_N_digits (N.of_nat k)) as D. rewrite forallb_forall in D. specialize (D _ H). discriminate D.
Qed.
Lemma drawable_no_lf : forall s, drawable s -> ~ In 10%N s.
Proof. intros s H. apply H. Qed.
Lemma events_ok : forall n, wf n -> Forall ok_event (events_of n).
Proof.
  apply (dnode_ind' (fun n => wf n -> Forall ok_event (events_of n))); [|intros; constructor].
  intros s cs IH H. inversion H as [s' cs' Hs Hcs|]; subst. cbn [events_of].
  clear H. induction cs as [|c cs IHcs]; [constructor|].
  inversion IH as [|? ? IH1 IH2]; inversion Hcs as [|? ? Hc Hcs']; subst. cbn [flat_map].
  apply Forall_app. split; [|now apply IHcs].
  apply Forall_app. split; [|apply Forall_app; split; [|apply Forall_app; split; [now apply IH1|]]].
  - destruct Hc as [s2 cs2 H2 _|k s2 _ H2]; cbn [start_events].
    + constructor; [|constructor]. split; [exact Hs|]. split; [exact H2|now apply drawable_no_lf].
    + constructor.
      * split; [exact Hs|]. split; [exact H2|apply more_no_lf].
      * apply Forall_forall. intros e He. apply repeat_spec in He. subst e. split; [exact Hs|]. split; [exact H2|intros []].
  - destruct (has_child c) eqn:E; [|constructor]. destruct Hc as [s2 cs2 H2 _|]; [|discriminate E]. constructor; [exact H2|constructor].
  - destruct (has_child c) eqn:E; [|constructor]. destruct Hc as [s2 cs2 H2 _|]; [|discriminate E].
    constructor; [|constructor; [exact H2|constructor]]. split; [exact H2|]. split; [exact Hs|now apply drawable_no_lf].
Qed.

(** ** Decoding *)
Lemma repeat_more : forall k, repeat_text (more_text k) = Some k.
Proof.
  intros k. unfold repeat_text, more_text.
  change (starts (lit "More ") (lit "More " ++ ?x)) with (Some x). cbv iota.
  assert (forall d, forallb is_digit d = true -> cut (lit " times...") (d ++ lit " times...") = Some (d, [])) as C.
  { induction d as [|c d IH]; intros H; [reflexivity|]. cbn [forallb] in H. apply andb_true_iff in H as [H1 H2].
    cbn [app cut]. rewrite (IH H2).
    assert (starts (lit " times...") (c :: d ++ lit " times...") = None) as ->; [|reflexivity].
    change (lit " times...") with (32%N :: lit "times...") at 1. cbn [starts].
    destruct (N.eqb_spec 32 c) as [<-|]; [discriminate H1|reflexivity]. }
  rewrite C by apply dec_of_N_digits. rewrite dec_of_N_digits, dec_of_N_val, Nat2N.id. reflexivity.
Qed.
Lemma repeat_drawable : forall s, drawable s -> repeat_text s = None.
Proof. intros s (_ & _ & _ & H). unfold repeat_text. now rewrite H. Qed.
Definition next_ok (es : list event) : Prop := match es with Act _ :: _ | Deact _ :: _ => False | _ => True end.
Lemma decode_leaf : forall st s done b t es, next_ok es ->
  decode ((s, done) :: st) None (Msg s b t :: es) =
  match repeat_text t with
  | Some k => if Nat.ltb k 1 then None
              else decode ((s, repeat (Call b []) k ++ done) :: st) (match Nat.min k 3 - 1 with 0 => None | f => Some (b, f) end) es
  | None => if seqb t b then decode ((s, Call b [] :: done) :: st) None es else None
  end.
Proof.
  intros st s done b t [|[a' b' t'|x|x] es] H; try contradiction H; cbn [decode]; rewrite seqb_refl; reflexivity.
Qed.
Lemma decode_fill : forall k st s done b es,
  decode ((s, done) :: st) (match k with 0 => None | f => Some (b, f) end) (repeat (Msg s b []) k ++ es) =
  decode ((s, done) :: st) None es.
Proof.
  induction k as [|k IH]; intros st s done b es; [reflexivity|].
  cbn [repeat app]. cbn [decode]. rewrite !seqb_refl. cbn [andb]. apply IH.
Qed.
Lemma repeat_snoc : forall (x : calls) k, repeat x k ++ [x] = x :: repeat x k.
Proof. intros x. induction k as [|k IH]; [reflexivity|]. cbn. now rewrite IH. Qed.
Lemma rev_repeat : forall (x : calls) k, rev (repeat x k) = repeat x k.
Proof. intros x. induction k as [|k IH]; [reflexivity|]. cbn [repeat rev]. now rewrite IH, repeat_snoc. Qed.
Lemma decode_act : forall st s done x es,
  decode ((s, done) :: st) None (Msg s x x :: Act x :: es) = decode ((x, []) :: (s, done) :: st) None es.
Proof. intros st s done x es. cbn [decode]. rewrite !seqb_refl. reflexivity. Qed.
Lemma decode_deact : forall st s done x dx es,
  decode ((x, dx) :: (s, done) :: st) None (Msg x s s :: Deact x :: es) = decode ((s, Call x (rev dx) :: done) :: st) None es.
Proof. intros st s done x dx es. cbn [decode]. rewrite !seqb_refl. reflexivity. Qed.
Lemma start_ne : forall s c, exists b t tl, start_events s c = Msg s b t :: tl.
Proof. intros s [x cs|k to]; cbn [start_events]; eauto. Qed.
Lemma events_next : forall s cs rest, next_ok rest -> next_ok (events_of (DNode s cs) ++ rest).
Proof.
  intros s [|c cs] rest H; [exact H|]. cbn [events_of flat_map].
  destruct (start_ne s c) as (b & t & tl & ->). exact I.
Qed.
Lemma decode_events : forall n, wf n -> forall st done rest, next_ok rest ->
  match n with
  | DNode s cs => decode ((s, done) :: st) None (events_of n ++ rest) = decode ((s, rev (flat_map expand cs) ++ done) :: st) None rest
  | DRepeat _ _ => True
  end.
Proof.
  apply (dnode_ind' (fun n => wf n -> forall st done rest, next_ok rest ->
    match n with
    | DNode s cs => decode ((s, done) :: st) None (events_of n ++ rest) = decode ((s, rev (flat_map expand cs) ++ done) :: st) None rest
    | DRepeat _ _ => True
    end)); [|intros; exact I].
  intros s cs IH H st. inversion H as [s' cs' Hs Hcs|]; subst. clear H.
  induction cs as [|c cs IHcs]; intros done rest NR; [reflexivity|].
  inversion IH as [|? ? IH1 IH2]; inversion Hcs as [|? ? Hc Hcs']; subst.
  specialize (IHcs IH2 Hcs').
  assert (events_of (DNode s (c :: cs)) = (start_events s c ++ (if has_child c then [Act (d_service c)] else []) ++ events_of c ++
      (if has_child c then [Msg (d_service c) s s; Deact (d_service c)] else [])) ++ events_of (DNode s cs)) as -> by reflexivity.
  rewrite <- !app_assoc.
  pose proof (events_next s cs rest NR) as NX. set (more := events_of (DNode s cs) ++ rest) in *.
  cbn [flat_map]. rewrite rev_app_distr, <- app_assoc.
  destruct Hc as [x xs Hx Hxs|k to Hk Hto].
  - destruct xs as [|y ys].
    + cbn [start_events has_child d_children events_of flat_map app].
      rewrite decode_leaf by exact NX. rewrite repeat_drawable, seqb_refl by exact Hx.
      unfold more. rewrite IHcs by exact NR. reflexivity.
    + cbn [has_child d_children d_service start_events app]. rewrite decode_act.
      assert (wf (DNode x (y :: ys))) as W by now constructor.
      rewrite (IH1 W ((s, done) :: st) [] (Msg x s s :: Deact x :: more) I). rewrite decode_deact.
      unfold more. rewrite IHcs by exact NR. rewrite app_nil_r, rev_involutive. reflexivity.
  - cbn [start_events has_child d_children events_of app].
    rewrite decode_leaf.
    + rewrite repeat_more. destruct (Nat.ltb_spec k 1) as [L|_]; [lia|].
      set (f := Nat.min k 3 - 1).
      assert (forall d, decode ((s, d) :: st) (match f with 0 => None | g => Some (to, g) end) (repeat (Msg s to []) f ++ more) = decode ((s, d) :: st) None more) as DF by (intros d; apply decode_fill).
      etransitivity; [|etransitivity; [apply DF|]]; [destruct f; reflexivity|]. unfold more. rewrite IHcs by exact NR. cbn [expand]. now rewrite rev_repeat.
    + destruct (Nat.min k 3 - 1); [exact NX|exact I].
Qed.
Lemma decode_root : forall s cs, wf (DNode s cs) -> decode [(s, [])] None (events_of (DNode s cs)) = Some (Call s (flat_map expand cs)).
Proof.
  intros s cs H. rewrite <- (app_nil_r (events_of (DNode s cs))).
  rewrite (decode_events (DNode s cs) H [] [] [] I). rewrite app_nil_r. cbn [decode]. now rewrite rev_involutive.
Qed.
Lemma balanced_msgs : forall es stack rest, Forall (fun e => match e with Msg _ _ _ => True | _ => False end) es ->
  balanced stack rest -> balanced stack (es ++ rest).
Proof. induction es as [|[a b t|x|x] es IH]; intros stack rest H K; [exact K| | |]; inversion H as [|? ? H1 H2]; subst; [now apply IH|contradiction|contradiction]. Qed.
Lemma start_msgs : forall s c, Forall (fun e => match e with Msg _ _ _ => True | _ => False end) (start_events s c).
Proof.
  intros s [x xs|k to]; cbn [start_events].
  - now repeat constructor.
  - constructor; [exact I|]. apply Forall_forall. intros e He. apply repeat_spec in He. now subst.
Qed.
Lemma balanced_events : forall n stack rest, balanced stack rest -> balanced stack (events_of n ++ rest).
Proof.
  apply (dnode_ind' (fun n => forall stack rest, balanced stack rest -> balanced stack (events_of n ++ rest))); [|intros; assumption].
  intros s cs IH stack rest H. cbn [events_of]. induction IH as [|c cs Hc _ IHcs]; [exact H|].
  cbn [flat_map]. rewrite <- !app_assoc. apply balanced_msgs; [apply start_msgs|].
  destruct (has_child c); cbn [app balanced].
  - apply Hc. cbn [app balanced]. split; [reflexivity|exact IHcs].
  - apply Hc. exact IHcs.
Qed.
(** Every deactivation is preceded by the return to the caller. *)

(** ** The whole diagram *)
Lemma diagram_events_wf : forall s c cs, wf (DNode s (c :: cs)) ->
  diagram_events (to_mermaid (DNode s (c :: cs))) = Some (events_of (DNode s (c :: cs))).
Proof.
  intros s c cs H. unfold to_mermaid, diagram_events. cbn [d_children].
  rewrite rec_text by exact H. set (es := events_of (DNode s (c :: cs))).
  change (lit "sequenceDiagram" ++ [13%N; 10%N] ++ text_of es) with ((lit "sequenceDiagram" ++ [13%N]) ++ 10%N :: text_of es).
  rewrite lines_one by now apply lit_no_lf. cbn [app]. rewrite seqb_refl.
  pose proof (events_ok _ H) as OK. fold es in OK.
  rewrite lines_text by (eapply Forall_impl; [|exact OK]; exact line_no_lf). now apply read_lines_of.
Qed.
Lemma wf_fold : forall n l, length l <= n -> Forall (fun t => wf (to_trace_node t)) l -> Forall (fun t => drawable (svc t)) l ->
  Forall wf (fold_children 0 l).
Proof.
  induction n as [|n IH]; intros l L H1 H2; (destruct l as [|c l]; [constructor|]); cbn [length] in L; [lia|].
  inversion H1 as [|? ? A1 A2]; inversion H2 as [|? ? B1 B2]; subst. cbn [fold_children]. destruct (is_last c).
  - cbv zeta. apply Forall_app. split.
    + apply Forall_forall. intros d Hd. unfold create_nodes in Hd. apply in_map_iff in Hd as (j & <- & Hj).
      apply in_seq in Hj.
      destruct (Nat.ltb_spec j 3); [now constructor|]. destruct (Nat.eqb_spec (j + 1) (S (count_repeated (svc c) l))); [now constructor|].
      constructor; [lia|exact B1].
    + rewrite fold_skip. set (k := S (count_repeated (svc c) l) - 1).
      rewrite <- (firstn_skipn k l) in A2, B2. apply Forall_app in A2 as [_ A2]. apply Forall_app in B2 as [_ B2].
      apply IH; [rewrite skipn_length; lia|exact A2|exact B2].
  - constructor; [exact A1|]. apply IH; [lia|exact A2|exact B2].
Qed.
Lemma wf_trace : forall t, Forall drawable (all_services t) -> wf (to_trace_node t).
Proof.
  apply (tree_ind' (fun t => Forall drawable (all_services t) -> wf (to_trace_node t))).
  intros v cs IH H. cbn [all_services] in H. inversion H as [|? ? H1 H2]; subst.
  rewrite to_trace_node_eq. constructor; [exact H1|]. apply (wf_fold (length cs)); [apply Nat.le_refl| |].
  - apply Forall_forall. intros t Ht. rewrite Forall_forall in IH. apply (IH t Ht).
    apply Forall_forall. intros x Hx. rewrite Forall_forall in H2. apply H2. apply in_flat_map. eauto.
  - apply Forall_forall. intros t Ht. rewrite Forall_forall in H2. apply H2. apply in_flat_map. exists t. split; [exact Ht|].
    destruct t as [w ts]. now left.
Qed.
