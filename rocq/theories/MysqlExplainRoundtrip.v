(** Printing a MySQL plan and reading it back. *)
From Coq Require Import String List NArith ZArith QArith Bool Lia Arith.
From Verif Require Import Base Dec Regex RegexInv ExplainTree ExplainSpec ExplainLineSpec
  ExplainTreeProofs ExplainLineProofs ExplainMatchProofs ExplainTableProofs MysqlExplain MysqlExplainProofs.
Import ListNotations.
Local Open Scope nat_scope.

(** ** Indentation *)
Lemma mt_bot0 : forall R s c (k : @kont R), mt Bot 0 s c k = k 0 s c.
Proof. reflexivity. Qed.
Lemma find_bot_spaces : forall ws rest, forallb is_space ws = true ->
    match rest with [] => True | c :: _ => is_space c = false end ->
    exists m, find (Cat Bot (Star true space)) (ws ++ rest) = Some m /\ m_text m = ws.
Proof.
  intros ws rest Hw Hr.
  assert (HM : exists m, match_at (Cat Bot (Star true space)) 0 (ws ++ rest) = Some m /\ m_text m = ws).
  { eexists. unfold match_at. rewrite mt_cat, mt_bot0. split.
    - unfold space. rewrite star_chr_greedy. apply greedy_run_longest; auto.
    - cbn [m_text]. apply firstn_len. lia. }
  destruct HM as (m & HM & Ht). exists m. split; auto. unfold find.
  destruct (ws ++ rest); cbn [find_from]; now rewrite HM.
Qed.
Lemma byte_len_spaces : forall ws, forallb is_space ws = true -> byte_len ws = length ws.
Proof.
  induction ws as [|c ws IH]; intros H; auto. simpl in *. apply andb_true_iff in H. destruct H as [Hc H].
  rewrite IH by auto. unfold rune_len.
  assert (HL : N.ltb c 128 = true).
  { unfold is_space in Hc. apply N.ltb_lt. rewrite !orb_true_iff, !N.eqb_eq in Hc. lia. }
  rewrite HL. lia.
Qed.
Theorem nest_of_spec : forall ws rest, Forall (fun c => is_space c = true) ws ->
    match rest with [] => True | c :: _ => is_space c = false end ->
    nest_of (ws ++ rest) = length ws / 4.
Proof.
  intros ws rest Hw Hr. apply forall_forallb in Hw.
  destruct (find_bot_spaces ws rest Hw Hr) as (m & Hm & Ht).
  unfold nest_of, indent_reg. rewrite Hm, Ht, byte_len_spaces; auto.
Qed.
Lemma spaces_space : forall n, Forall (fun c => is_space c = true) (spaces n).
Proof. intros. apply Forall_forall. intros x H. apply repeat_spec in H. subst. reflexivity. Qed.

(** ** Occurrences *)
Lemma occurs_app : forall p a b : gostring, occurs p (a ++ b) ->
    occurs p a \/ occurs p b \/
    exists p1 p2 a' b', p = p1 ++ p2 /\ p1 <> [] /\ p2 <> [] /\ a = a' ++ p1 /\ b = p2 ++ b'.
Proof.
  intros p a b (u & v & E). revert u E. induction a as [|x a IH]; intros u E.
  - right; left. exists u, v. exact E.
  - destruct u as [|y u].
    + cbn [app] in E.
      assert (HC : (exists w, x :: a = p ++ w) \/ (exists w, p = (x :: a) ++ w /\ w <> [] /\ b = w ++ v)).
      { clear IH. change (x :: a ++ b) with ((x :: a) ++ b) in E. revert E. generalize (x :: a) as l. clear x a.
        induction p as [|y p IH]; intros l E.
        - left. exists l. reflexivity.
        - destruct l as [|z l].
          + right. exists (y :: p). simpl in *. repeat split; auto; congruence.
          + simpl in E. inversion E; subst. destruct (IH _ H1) as [(w & ->)|(w & -> & Hw & ->)].
            * left. exists w. reflexivity.
            * right. exists w. auto. }
      destruct HC as [(w & ->)|(w & -> & Hw & ->)].
      * left. exists [], w. reflexivity.
      * right; right. exists (x :: a), w, [], v. repeat split; auto. congruence.
    + simpl in E. inversion E; subst. destruct (IH _ H1) as [(a1 & a2 & ->)|[H|(p1 & p2 & a' & b' & -> & H2 & H3 & -> & ->)]].
      * left. exists (y :: a1), a2. reflexivity.
      * right; left; auto.
      * right; right. exists p1, p2, (y :: a'), b'. repeat split; auto.
Qed.
Lemma occurs_head : forall x p s, occurs (x :: p) s -> In x s.
Proof. intros x p s (a & b & ->). apply in_app_iff. right. left. reflexivity. Qed.

(** No phrase that introduces numbers begins before the description. *)
Lemma occurs_after : forall p0 a b, ~ In 40%N a -> occurs (40%N :: p0) (a ++ b) -> occurs (40%N :: p0) b.
Proof.
  intros p0 a b Ha H. apply occurs_app in H. destruct H as [H|[H|(p1 & p2 & a' & b' & E & H1 & _ & -> & _)]]; auto.
  - apply occurs_head in H. tauto.
  - destruct p1 as [|y p1]; [congruence|]. simpl in E. inversion E; subst.
    elim Ha. apply in_app_iff. right. left. reflexivity.
Qed.
(** ... nor in the middle of the description's end and two spaces. *)
Lemma occurs_split : forall p (a b : gostring), occurs p (a ++ b) ->
    (forall p1 p2 b', p = p1 ++ p2 -> p1 <> [] -> p2 <> [] -> b <> p2 ++ b') ->
    occurs p a \/ occurs p b.
Proof.
  intros p a b H HN. apply occurs_app in H.
  destruct H as [H|[H|(p1 & p2 & a' & b' & E & H1 & H2 & _ & H3)]]; auto. elim (HN _ _ _ E H1 H2 H3).
Qed.
Fixpoint no_double (p : gostring) : bool :=
  match p with
  | [] => true
  | c :: p' => (match p' with
                | [] => negb (N.eqb c 32)
                | d :: _ => negb (N.eqb c 32 && N.eqb d 32)
                end && no_double p')%bool
  end.
Lemma no_double_tail : forall p p1 p2 (s b' : gostring), no_double p = true -> p = p1 ++ p2 -> p2 <> [] ->
    lit "  " ++ s <> p2 ++ b'.
Proof.
  intros p p1 p2 s b' H E Hne E2. subst p. induction p1 as [|c p1 IH].
  - simpl app in H. destruct p2 as [|c [|d p2]]; [congruence| |]; simpl in E2; inversion E2; subst;
      discriminate.
  - cbn [app no_double] in H. apply andb_true_iff in H. tauto.
Qed.

Lemma no_paren_num : forall w, forallb is_num w = true -> ~ In 40%N w.
Proof. intros w H Hi. rewrite forallb_forall in H. apply H in Hi. discriminate. Qed.
Lemma numeral_no_paren : forall w q, numeral w q -> ~ In 40%N w.
Proof. intros w q H. apply no_paren_num. apply (numeral_num _ _ H). Qed.
Lemma count_no_paren : forall w z, count w z -> ~ In 40%N w.
Proof.
  intros w z H Hi. destruct (count_digits _ _ H) as [HD _]. rewrite forallb_forall in HD.
  apply HD in Hi. discriminate.
Qed.
Ltac no_paren := repeat match goal with
  | |- ~ In _ (_ ++ _) => let H := fresh in intros H; apply in_app_iff in H; destruct H as [H|H]; revert H
  | |- In _ (_ ++ _) -> False => let H := fresh in intros H; apply in_app_iff in H; destruct H as [H|H]; revert H
  end.
(** No bracket of the text is followed by [c], and none ends it. *)
Fixpoint freeb (c : rune) (s : gostring) : bool :=
  match s with
  | [] => true
  | x :: s' => (match s' with
                | [] => negb (N.eqb x 40)
                | y :: _ => negb (N.eqb x 40 && N.eqb y c)
                end && freeb c s')%bool
  end.
Lemma freeb_app : forall c a b, freeb c a = true -> freeb c b = true -> freeb c (a ++ b) = true.
Proof.
  intros c a b. induction a as [|x a IH]; intros Ha Hb; auto.
  cbn [freeb] in Ha. apply andb_true_iff in Ha. destruct Ha as [H1 H2].
  cbn [app freeb]. rewrite IH by auto. rewrite andb_true_r. destruct a as [|y a]; [|exact H1].
  cbn [app]. apply negb_true_iff in H1. rewrite H1. destruct b; reflexivity.
Qed.
Lemma freeb_in : forall c s, ~ In 40%N s -> freeb c s = true.
Proof.
  induction s as [|x s IH]; intros H; auto. cbn [freeb].
  assert (Hx : N.eqb x 40 = false) by (apply N.eqb_neq; intros ->; apply H; left; auto).
  rewrite Hx, IH by (intros Hi; apply H; right; auto). destruct s; reflexivity.
Qed.
Lemma freeb_occurs : forall c p0 s, freeb c s = true -> ~ occurs (40%N :: c :: p0) s.
Proof.
  intros c p0 s H (a & b & ->). induction a as [|x a IH].
  - cbn [app freeb] in H. rewrite !N.eqb_refl in H. discriminate.
  - cbn [app freeb] in H. apply andb_true_iff in H. tauto.
Qed.
Ltac free := repeat match goal with
  | |- freeb _ (_ ++ _) = true => apply freeb_app
  end; try reflexivity.
Lemma actual_free : forall a f v r l, actual_means a f v r l -> freeb 99 (actual_text a) = true.
Proof.
  intros a f v r l (N1 & _ & N2 & _ & C1 & C2). unfold actual_text.
  free; apply freeb_in; eauto using numeral_no_paren, count_no_paren.
Qed.
Lemma mysql_estimate_free : forall e i c r, mysql_estimate_means e i c r -> freeb 97 (mysql_estimate_text e) = true.
Proof.
  intros e i c r (HI & N2 & _ & HR). unfold mysql_estimate_text. free.
  - destruct (e_init e), i; try tauto; try reflexivity. free. apply freeb_in. eapply numeral_no_paren. apply HI.
  - apply freeb_in. eauto using numeral_no_paren.
  - destruct (e_rows e), r; try tauto; try reflexivity. free. apply freeb_in. eapply count_no_paren. apply HR.
Qed.
Lemma pg_estimate_free : forall e i c r w, pg_estimate_means e i c r w -> freeb 97 (pg_estimate_text e) = true.
Proof.
  intros e i c r w (N1 & _ & N2 & _ & C1 & C2). unfold pg_estimate_text.
  free; apply freeb_in; eauto using numeral_no_paren, count_no_paren.
Qed.

(** ** One printed line *)
Definition reads_back (d : nat) (n : mysql_node) (l : result_line) : Prop :=
  rl_text l = mysql_node_text d n /\ mysql_table (mysql_node_text d n) (rl_table l) /\
  match mn_estimate n with
  | Some e => exists init cost, mysql_estimate_means e init cost (rl_rows l) /\
      same_number (rl_init_cost l) init /\ same_number (rl_cost l) (Some cost)
  | None => rl_init_cost l = None /\ rl_cost l = None /\ rl_rows l = None
  end /\
  match mn_actual n with
  | Some a => exists first avg rows loops, actual_means a first avg rows loops /\
      same_number (rl_time_first l) (Some first) /\ same_number (rl_time_avg l) (Some avg) /\
      rl_returned l = Some rows /\ rl_loops l = Some loops
  | None => rl_time_first l = None /\ rl_time_avg l = None /\ rl_returned l = None /\ rl_loops l = None
  end.

Lemma head_no_paren : forall d, ~ In 40%N (spaces (4 * d) ++ lit "-> ").
Proof.
  intros d. no_paren; [|now apply not_in_lit]. intros H. apply repeat_spec in H. discriminate.
Qed.
Lemma occurs_desc : forall p0 h desc s, no_double (40%N :: p0) = true -> ~ In 40%N h ->
    ~ occurs (40%N :: p0) desc -> ~ occurs (40%N :: p0) (lit "  " ++ s) ->
    ~ occurs (40%N :: p0) (h ++ desc ++ lit "  " ++ s).
Proof.
  intros p0 h desc s HD Hh H1 H2 H. apply occurs_after in H; auto.
  apply occurs_split in H; [tauto|]. intros p1 p2 b' E _ Hne. eapply no_double_tail; eauto.
Qed.

Lemma parse_printed_line : forall d n, mysql_printable n ->
    exists l, parse_line (mysql_node_text d n) = Ok (d, l) /\ reads_back d n l.
Proof.
  intros d n (_ & HC & HA & HE & HM).
  set (h := spaces (4 * d) ++ lit "-> ").
  pose proof (head_no_paren d) as Hh. fold h in Hh.
  set (est := match mn_estimate n with Some e => lit " " ++ mysql_estimate_text e | None => [] end).
  set (act := match mn_actual n with Some a => lit " " ++ actual_text a | None => lit " (never executed)" end).
  assert (HT : mysql_node_text d n = h ++ mn_desc n ++ lit " " ++ est ++ act).
  { unfold mysql_node_text, h. now rewrite <- app_assoc. }
  (* the estimate *)
  assert (H1 : exists oi oc rows, parse_estimation (mysql_node_text d n) = Ok (oi, oc, rows) /\
      match mn_estimate n with
      | Some e => exists init cost, mysql_estimate_means e init cost rows /\ same_number oi init /\ same_number oc (Some cost)
      | None => oi = None /\ oc = None /\ rows = None
      end).
  { destruct (mn_estimate n) as [e|] eqn:EE.
    - destruct HE as (init & cost & rows & HE).
      destruct (parse_mysql_estimation_printed (h ++ mn_desc n ++ lit "  ") e init cost rows act HE) as (oi & c & HP & Hi & Hc).
      { rewrite <- (app_nil_r (lit "  ")). apply occurs_desc; auto. intros H. apply occurs_head in H.
        simpl in H. intuition discriminate. }
      exists oi, (Some c), rows. split; [|exists init, cost; auto].
      rewrite HT. unfold est. rewrite <- !app_assoc in HP. rewrite <- !app_assoc. exact HP.
    - exists None, None, None. split; auto. apply parse_mysql_estimation_absent.
      rewrite HT. unfold est. cbn [app].
      assert (EA : exists s, lit " " ++ act = lit "  " ++ s /\ freeb 99 (lit " " ++ act) = true).
      { unfold act. destruct (mn_actual n) as [a|].
        - destruct HM as (f & v & r & l & HM). exists (actual_text a). split; [reflexivity|].
          free. eauto using actual_free.
        - exists (lit "(never executed)"). split; reflexivity. }
      destruct EA as (s & EA & HF). rewrite EA in *. apply occurs_desc; auto. now apply freeb_occurs. }
  (* the measurement *)
  assert (H2 : exists f v r l, parse_actual (mysql_node_text d n) = Ok (f, v, r, l) /\
      match mn_actual n with
      | Some a => exists first avg rows loops, actual_means a first avg rows loops /\
          same_number f (Some first) /\ same_number v (Some avg) /\ r = Some rows /\ l = Some loops
      | None => f = None /\ v = None /\ r = None /\ l = None
      end).
  { assert (HF : freeb 97 est = true).
    { unfold est. destruct (mn_estimate n); [|reflexivity]. destruct HE as (i & c & r & HE). free.
      eauto using mysql_estimate_free. }
    assert (ES : forall s, exists s', lit " " ++ est ++ lit " " ++ s = lit "  " ++ s').
    { intros s. unfold est. destruct (mn_estimate n); eexists; simpl; reflexivity. }
    destruct (mn_actual n) as [a|] eqn:EA.
    - destruct HM as (first & avg & rows & loops & HM).
      destruct (parse_actual_printed (h ++ mn_desc n ++ lit " " ++ est ++ lit " ") a first avg rows loops [] HM)
        as (f & v & HP & Hf & Hv).
      { destruct (ES []) as (s' & E). rewrite app_nil_r in E. rewrite E. apply occurs_desc; auto.
        rewrite <- E. apply freeb_occurs. free. exact HF. }
      exists (Some f), (Some v), (Some rows), (Some loops). split; [|exists first, avg, rows, loops; simpl; auto].
      rewrite HT. unfold act. rewrite app_nil_r in HP. rewrite <- !app_assoc in HP. exact HP.
    - exists None, None, None, None. split; auto. apply parse_actual_absent. rewrite HT. unfold act.
      change (lit " (never executed)") with (lit " " ++ lit "(never executed)").
      destruct (ES (lit "(never executed)")) as (s' & E). rewrite E. apply occurs_desc; auto.
      rewrite <- E. apply freeb_occurs. free. exact HF. }
  destruct H1 as (oi & oc & rows & E1 & R1). destruct H2 as (f & v & r & l & E2 & R2).
  eexists. split.
  - unfold parse_line. rewrite E1. cbn [obind]. rewrite E2. cbn [obind]. f_equal. f_equal.
    unfold mysql_node_text. rewrite nest_of_spec; [|apply spaces_space|reflexivity].
    unfold spaces. rewrite repeat_length. rewrite Nat.mul_comm. apply Nat.div_mul. lia.
  - unfold reads_back. cbn [rl_text rl_table rl_init_cost rl_cost rl_rows rl_time_first rl_time_avg rl_returned rl_loops].
    split; auto. split; [apply mysql_table_exact|]. auto.
Qed.

(** ** The whole text *)
Lemma split_app_nl : forall sep (l r : gostring), ~ In sep l -> split sep (l ++ sep :: r) = l :: split sep r.
Proof.
  induction l as [|c l IH]; intros r H.
  - simpl. now rewrite N.eqb_refl.
  - cbn [app split]. destruct (N.eqb_spec c sep) as [->|]; [elim H; left; auto|].
    rewrite IH by (intros Hi; apply H; right; auto). reflexivity.
Qed.
Lemma split_lines : forall ls : list gostring, Forall (fun l => ~ In nl l) ls ->
    split nl (flat_map (fun l => l ++ [nl]) ls) = ls ++ [[]].
Proof.
  induction 1 as [|l ls H HF IH]; [reflexivity|].
  cbn [flat_map app]. rewrite <- app_assoc. cbn [app]. rewrite split_app_nl by auto. now rewrite IH.
Qed.

Lemma in_lit_nl : forall p, forallb (fun c => negb (N.eqb c 10)) p = true -> ~ In nl p.
Proof. intros p H Hi. rewrite forallb_forall in H. apply H in Hi. discriminate. Qed.
Lemma numeral_no_nl : forall w q, numeral w q -> ~ In nl w.
Proof.
  intros w q H Hi. destruct (numeral_num _ _ H) as [HN _]. rewrite forallb_forall in HN.
  apply HN in Hi. discriminate.
Qed.
Lemma count_no_nl : forall w z, count w z -> ~ In nl w.
Proof.
  intros w z H Hi. destruct (count_digits _ _ H) as [HN _]. rewrite forallb_forall in HN.
  apply HN in Hi. discriminate.
Qed.
Lemma actual_no_nl : forall a f v r l, actual_means a f v r l -> ~ In nl (actual_text a).
Proof.
  intros a f v r l (N1 & _ & N2 & _ & C1 & C2). unfold actual_text.
  no_paren; try (now apply in_lit_nl); eauto using numeral_no_nl, count_no_nl.
  all: try (eapply numeral_no_nl; eassumption); eapply count_no_nl; eassumption.
Qed.
Lemma mysql_estimate_no_nl : forall e i c r, mysql_estimate_means e i c r -> ~ In nl (mysql_estimate_text e).
Proof.
  intros e i c r (HI & N2 & _ & HR). unfold mysql_estimate_text. no_paren; try (now apply in_lit_nl).
  - destruct (e_init e), i; try tauto. destruct HI as [N1 _].
    no_paren; [eapply numeral_no_nl; eassumption|now apply in_lit_nl].
  - eapply numeral_no_nl; eassumption.
  - destruct (e_rows e), r; try tauto. no_paren; [now apply in_lit_nl|eapply count_no_nl; eassumption].
Qed.
Lemma node_no_nl : forall d n, mysql_printable n -> ~ In nl (mysql_node_text d n).
Proof.
  intros d n (HD & _ & _ & HE & HM). unfold mysql_node_text. no_paren; try (now apply in_lit_nl); auto.
  - intros H. apply repeat_spec in H. discriminate.
  - destruct (mn_estimate n); [|tauto]. destruct HE as (i & c & r & HE).
    no_paren; [now apply in_lit_nl|eapply mysql_estimate_no_nl; eassumption].
  - destruct (mn_actual n); [|now apply in_lit_nl]. destruct HM as (f & v & r & l & HM).
    no_paren; [now apply in_lit_nl|eapply actual_no_nl; eassumption].
Qed.
Lemma node_nonempty : forall d n, nonempty (mysql_node_text d n) = true.
Proof. intros d n. unfold mysql_node_text. destruct d; reflexivity. Qed.

(** The tree with the lines read from the printed nodes. *)
Definition line_of (d : nat) (n : mysql_node) : result_line :=
  match parse_line (mysql_node_text d n) with Ok (_, l) => l | _ => empty_line end.
Fixpoint relabel (d : nat) (t : tree mysql_node) : tree result_line :=
  match t with Node n cs => Node (line_of d n) (map (relabel (S d)) cs) end.
Lemma relabel_depths : forall f d,
    forest_depths d (map (relabel d) f) = map (fun p => (fst p, line_of (fst p) (snd p))) (forest_depths d f).
Proof.
  assert (HT : forall (t : tree mysql_node) d,
     tree_depths d (relabel d t) = map (fun p => (fst p, line_of (fst p) (snd p))) (tree_depths d t)).
  { apply (tree_ind' (fun t => forall d,
     tree_depths d (relabel d t) = map (fun p => (fst p, line_of (fst p) (snd p))) (tree_depths d t))).
    intros n cs IH d. cbn [relabel tree_depths map fst snd]. f_equal.
    induction IH as [|t ts Ht IH IH']; auto. cbn [map flat_map]. rewrite map_app, Ht, IH'. reflexivity. }
  induction f as [|t f IH]; intros d; auto. unfold forest_depths in *. cbn [map flat_map].
  now rewrite map_app, HT, IH.
Qed.
Lemma relabel_mirrors : forall (t : tree mysql_node) d, Forall mysql_printable (preorder t) ->
    mirrors reads_back d t (relabel d t).
Proof.
  apply (tree_ind' (fun t => forall d, Forall mysql_printable (preorder t) -> mirrors reads_back d t (relabel d t))).
  intros n cs IH d H. cbn [preorder] in H. inversion H as [|? ? Hn Hcs]; subst. cbn [relabel]. constructor.
  - destruct (parse_printed_line d n Hn) as (l & E & R). unfold line_of. now rewrite E.
  - clear H Hn. induction IH as [|t ts Ht IH IH']; [constructor|].
    cbn [flat_map] in Hcs. rewrite Forall_app in Hcs. destruct Hcs. cbn [map]. constructor; auto.
Qed.
Lemma forest_depths_snd : forall A (f : list (tree A)) d, map snd (forest_depths d f) = flat_map preorder f.
Proof.
  intros A f d. unfold forest_depths. induction f as [|t f IH]; auto.
  cbn [flat_map]. rewrite map_app, IH. f_equal. clear. revert t d.
  apply (tree_ind' (fun t : tree A => forall d, map snd (tree_depths d t) = preorder t)).
  intros a cs IH d. cbn [tree_depths map snd preorder]. f_equal.
  induction IH as [|t ts Ht IH IH']; auto. cbn [flat_map]. rewrite map_app, Ht, IH'. reflexivity.
Qed.

Theorem mysql_roundtrip : forall f, Forall mysql_printable (flat_map preorder f) ->
    exists f', build_explain (mysql_text f) = Ok (Node empty_line f') /\ Forall2 (mirrors reads_back 0) f f'.
Proof.
  intros f Hf. exists (map (relabel 0) f). split.
  - apply build_explain_iff. split; [reflexivity|]. cbn [t_children]. unfold parses, mysql_text.
    rewrite relabel_depths.
    assert (HP : Forall (fun p => mysql_printable (snd p)) (forest_depths 0 f)).
    { rewrite Forall_forall in *. intros p Hp. apply Hf. rewrite <- (forest_depths_snd _ f 0). now apply in_map. }
    remember (forest_depths 0 f) as items eqn:EI. clear EI Hf f.
    replace (flat_map (fun p => mysql_node_text (fst p) (snd p) ++ [nl]) items)
      with (flat_map (fun l => l ++ [nl]) (map (fun p => mysql_node_text (fst p) (snd p)) items)).
    2:{ induction items as [|p items IH]; auto. inversion HP; subst. cbn [map flat_map]. now rewrite IH. }
    rewrite split_lines.
    + rewrite filter_app. cbn [filter nonempty]. rewrite app_nil_r.
      induction HP as [|[d n] items Hn HP IH]; [constructor|]. cbn [map filter fst snd].
      rewrite node_nonempty. constructor; auto. unfold line_of.
      destruct (parse_printed_line d n Hn) as (l & E & _). now rewrite E.
    + apply Forall_map. eapply Forall_impl; [|exact HP]. intros [d n] Hn. apply node_no_nl. exact Hn.
  - induction f as [|t f IH]; [constructor|]. cbn [flat_map] in Hf. rewrite Forall_app in Hf. destruct Hf.
    cbn [map]. constructor; auto. now apply relabel_mirrors.
Qed.
