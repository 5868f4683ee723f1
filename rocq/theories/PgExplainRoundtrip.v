(** Printing a PostgreSQL plan and reading it back. *)
From Coq Require Import String List NArith ZArith QArith Bool Lia Arith.
From Verif Require Import Base Dec Regex RegexInv ExplainTree ExplainSpec ExplainLineSpec
  ExplainTreeProofs ExplainLevelProofs ExplainLineProofs ExplainMatchProofs ExplainTableProofs PgExplain PgExplainSpec
  PgExplainProofs PgExplainTreeProofs PgPrintSpec.
From Verif Require MysqlExplainRoundtrip.
Import MysqlExplainRoundtrip.
Import PgExplain.
Import ListNotations.
Local Open Scope nat_scope.

(** ** Kinds of printed lines *)
Lemma info_colon : forall l, info_line l -> In 58%N l.
Proof.
  intros l (a & c & b & _ & [->| ->]); apply in_app_iff; right; simpl; auto.
Qed.
Lemma summary_colon : forall l, summary_line l -> In 58%N l.
Proof.
  intros l (c & t & b & -> & _). right. apply in_app_iff. right. left. reflexivity.
Qed.
Lemma indent_info : forall k l, info_line l -> info_line (spaces k ++ l).
Proof.
  intros k l (a & c & b & Hc & H). exists (spaces k ++ a), c, b. split; auto.
  rewrite <- !app_assoc. destruct H as [->| ->]; auto.
Qed.
Lemma app_spaces : forall k (a l : gostring) x s, is_space x = false -> spaces k ++ l = a ++ x :: s ->
    exists a', l = a' ++ x :: s.
Proof.
  induction k as [|k IH]; intros a l x s Hx E.
  - exists a. exact E.
  - destruct a as [|y a]; cbn [spaces repeat app] in E; inversion E; subst; [discriminate|].
    now apply (IH a).
Qed.
Lemma word_not_space : forall c, is_word c = true -> is_space c = false.
Proof.
  intros c H. unfold is_space. destruct (N.eqb_spec c 9) as [->|]; [discriminate|].
  destruct (N.eqb_spec c 10) as [->|]; [discriminate|]. destruct (N.eqb_spec c 12) as [->|]; [discriminate|].
  destruct (N.eqb_spec c 13) as [->|]; [discriminate|]. destruct (N.eqb_spec c 32) as [->|]; [discriminate|].
  reflexivity.
Qed.
Lemma indent_name : forall k l, name_line l -> name_line (spaces k ++ l).
Proof.
  intros k l [H1 H2]. split.
  - intros (a & c & b & Hc & H). apply H1.
    destruct H as [H|H]; apply app_spaces in H; auto using word_not_space;
      destruct H as (a' & ->); exists a', c, b; auto.
  - intros (a & b & H). apply H2. apply (app_spaces _ a l 45%N (lit "> " ++ b)) in H; [|reflexivity].
    destruct H as (a' & ->). exists a', b. reflexivity.
Qed.
Lemma indent_not_summary : forall k l, ~ summary_line (spaces (S k) ++ l).
Proof. intros k l (c & t & b & E & Hc & _). cbn [spaces repeat app] in E. inversion E; subst. discriminate. Qed.

Lemma numeral_no : forall x w q, is_num x = false -> numeral w q -> ~ In x w.
Proof.
  intros x w q Hx H Hi. destruct (numeral_num _ _ H) as [HN _]. rewrite forallb_forall in HN.
  apply HN in Hi. congruence.
Qed.
Lemma count_no : forall x w z, is_digit x = false -> count w z -> ~ In x w.
Proof.
  intros x w z Hx H Hi. destruct (count_digits _ _ H) as [HN _]. rewrite forallb_forall in HN.
  apply HN in Hi. congruence.
Qed.
Lemma lit_no : forall x p, forallb (fun c => negb (N.eqb c x)) p = true -> ~ In x p.
Proof. intros x p H Hi. rewrite forallb_forall in H. apply H in Hi. rewrite N.eqb_refl in Hi. discriminate. Qed.

Lemma pg_estimate_no : forall x e i c r w, is_num x = false -> is_digit x = false ->
    forallb (fun c => negb (N.eqb c x)) (lit "(cost=.. rows= width=)") = true ->
    pg_estimate_means e i c r w -> ~ In x (pg_estimate_text e).
Proof.
  intros x e i c r w Hn Hd Hx (N1 & _ & N2 & _ & C1 & C2). unfold pg_estimate_text.
  assert (HL : forall p, (forall y, In y p -> In y (lit "(cost=.. rows= width=)")) -> ~ In x p).
  { intros p Hp Hi. apply Hp in Hi. revert Hi. now apply lit_no. }
  no_paren; try (eapply numeral_no; eassumption); try (eapply count_no; eassumption);
    apply HL; simpl; intuition.
Qed.
Lemma actual_no : forall x e i c r w, is_num x = false -> is_digit x = false ->
    forallb (fun c => negb (N.eqb c x)) (lit "(actual time=.. rows= loops=)") = true ->
    actual_means e i c r w -> ~ In x (actual_text e).
Proof.
  intros x e i c r w Hn Hd Hx (N1 & _ & N2 & _ & C1 & C2). unfold actual_text.
  assert (HL : forall p, (forall y, In y p -> In y (lit "(actual time=.. rows= loops=)")) -> ~ In x p).
  { intros p Hp Hi. apply Hp in Hi. revert Hi. now apply lit_no. }
  no_paren; try (eapply numeral_no; eassumption); try (eapply count_no; eassumption);
    apply HL; simpl; intuition.
Qed.
Lemma numbers_no_colon : forall n, pg_printable n -> ~ In 58%N (pg_numbers n).
Proof.
  intros n (_ & _ & _ & _ & _ & (i & c & r & w & HE) & HA). unfold pg_numbers. no_paren.
  - now apply lit_no.
  - eapply pg_estimate_no; eauto; reflexivity.
  - destruct (pn_actual n); [|now apply lit_no]. destruct HA as (f & v & r' & l & HA). no_paren.
    + now apply lit_no.
    + eapply actual_no; eauto; reflexivity.
Qed.
Lemma node_line_kind : forall k n, pg_printable n ->
    kind (spaces k ++ lit "->  " ++ pn_desc n ++ pg_numbers n) = LArrow.
Proof.
  intros k n H. apply kind_arrow. split.
  - intros HI. apply info_colon in HI. revert HI. no_paren.
    + intros Hi. apply repeat_spec in Hi. discriminate.
    + now apply lit_no.
    + apply H.
    + now apply numbers_no_colon.
  - exists (spaces k), (lit " " ++ pn_desc n ++ pg_numbers n). reflexivity.
Qed.

(** ** Groups *)
Definition good_group (g : list gostring) : Prop :=
  exists h infos, g = h ++ infos /\ Forall (fun l => kind l = LInfo) infos /\
    ((exists a, h = [a] /\ kind a = LArrow) \/
     (exists l a, h = [l; a] /\ kind l = LPlanName /\ kind a = LArrow)).
Lemma regroup_infos : forall infos cur prev rest, Forall (fun l => kind l = LInfo) infos -> prev <> LPlanName ->
    exists prev', prev' <> LPlanName /\ regroup cur prev (infos ++ rest) = regroup (cur ++ infos) prev' rest.
Proof.
  induction infos as [|x infos IH]; intros cur prev rest H Hp.
  - exists prev. rewrite app_nil_r. auto.
  - inversion H as [|? ? Hx HF]; subst. cbn [app regroup]. rewrite Hx. cbn [start].
    destruct (IH (cur ++ [x]) LInfo rest HF) as (p & Hp' & E); [congruence|].
    exists p. split; auto. rewrite E, <- app_assoc. reflexivity.
Qed.
Lemma regroup_groups : forall gs cur prev, Forall good_group gs -> prev <> LPlanName ->
    regroup cur prev (concat gs) = cur :: gs.
Proof.
  induction gs as [|g gs IH]; intros cur prev HG Hp; [reflexivity|].
  inversion HG as [|? ? Hg HGs]; subst. cbn [concat].
  destruct Hg as (h & infos & -> & HI & [(a & -> & Ha)|(l & a & -> & Hl & Ha)]).
  - cbn [app]. cbn [regroup]. rewrite Ha.
    assert (Hs : start prev LArrow = true) by (destruct prev; congruence || reflexivity).
    rewrite Hs. destruct (regroup_infos infos [a] LArrow (concat gs) HI) as (p & Hp' & E); [congruence|].
    rewrite E, IH; auto.
  - cbn [app]. cbn [regroup]. rewrite Hl, Ha. cbn [start app].
    destruct (regroup_infos infos [l; a] LArrow (concat gs) HI) as (p & Hp' & E); [congruence|].
    cbn [app] in E. rewrite E, IH; auto.
Qed.
Lemma infos_kind : forall k infos, Forall info_line infos ->
    Forall (fun l => kind l = LInfo) (map (fun x => spaces k ++ x) infos).
Proof.
  intros k infos H. apply Forall_map. eapply Forall_impl; [|exact H].
  intros l Hl. apply kind_info. now apply indent_info.
Qed.
Lemma node_group : forall ind n, pg_printable n -> good_group (pg_node_lines (S ind) n).
Proof.
  intros ind n H. unfold pg_node_lines. pose proof H as (_ & _ & _ & HL & HI & _).
  destruct (pn_label n) as [l|].
  - eexists _, _. split; [reflexivity|]. split; [now apply infos_kind|].
    right. eexists _, _. split; [reflexivity|]. split; [|now apply node_line_kind].
    apply kind_name. apply indent_name. apply HL.
  - eexists _, _. split; [reflexivity|]. split; [now apply infos_kind|].
    left. eexists. split; [reflexivity|]. now apply node_line_kind.
Qed.
Lemma below_pos : forall ind n, exists k, pg_below ind n = S k.
Proof.
  intros [|ind] n; simpl; [eauto|]. destruct (pn_label n); eauto.
Qed.
Lemma tree_good : forall t ind, Forall pg_printable (preorder t) -> Forall good_group (pg_tree_groups (S ind) t).
Proof.
  apply (tree_ind' (fun t => forall ind, Forall pg_printable (preorder t) -> Forall good_group (pg_tree_groups (S ind) t))).
  intros n cs IH ind H. cbn [preorder] in H. inversion H as [|? ? Hn Hcs]; subst.
  cbn [pg_tree_groups]. constructor; [now apply node_group|].
  destruct (below_pos (S ind) n) as (k & ->). clear H Hn.
  induction IH as [|t ts Ht IH IH']; [constructor|]. cbn [flat_map] in *. rewrite Forall_app in *.
  destruct Hcs. split; auto.
Qed.
Lemma forest_good : forall ts ind, Forall pg_printable (flat_map preorder ts) ->
    Forall good_group (flat_map (pg_tree_groups (S ind)) ts).
Proof.
  induction ts as [|t ts IH]; intros ind H; [constructor|]. cbn [flat_map] in *. rewrite Forall_app in *.
  destruct H. split; auto using tree_good.
Qed.

(** No printed line looks like the summary. *)
Lemma infos_not_summary : forall k infos, Forall (fun l => ~ summary_line l) (map (fun x => spaces (S k) ++ x) infos).
Proof. intros k infos. apply Forall_map. apply Forall_forall. intros l _. apply indent_not_summary. Qed.
Lemma node_not_summary : forall ind n, Forall (fun l => ~ summary_line l) (pg_node_lines (S ind) n).
Proof.
  intros ind n. unfold pg_node_lines. destruct (pn_label n) as [l|]; cbn [app].
  - constructor; [|constructor].
    + replace (2 * S ind) with (S (2 * ind + 1)) by lia. apply indent_not_summary.
    + replace (2 * (S ind + 1)) with (S (2 * ind + 3)) by lia. apply indent_not_summary.
    + replace (2 * (S ind + 4)) with (S (2 * ind + 9)) by lia. apply infos_not_summary.
  - constructor.
    + replace (2 * S ind) with (S (2 * ind + 1)) by lia. apply indent_not_summary.
    + replace (2 * (S ind + 3)) with (S (2 * ind + 7)) by lia. apply infos_not_summary.
Qed.
Lemma tree_not_summary : forall t ind, Forall (fun l => ~ summary_line l) (concat (pg_tree_groups (S ind) t)).
Proof.
  apply (tree_ind' (fun t => forall ind, Forall (fun l => ~ summary_line l) (concat (pg_tree_groups (S ind) t)))).
  intros n cs IH ind. cbn [pg_tree_groups concat]. rewrite Forall_app. split; [apply node_not_summary|].
  destruct (below_pos (S ind) n) as (k & ->).
  induction IH as [|t ts Ht IH IH']; [constructor|]. cbn [flat_map]. rewrite concat_app, Forall_app. auto.
Qed.
Lemma forest_not_summary : forall ts ind, Forall (fun l => ~ summary_line l) (concat (flat_map (pg_tree_groups (S ind)) ts)).
Proof.
  induction ts as [|t ts IH]; intros ind; [constructor|]. cbn [flat_map]. rewrite concat_app, Forall_app.
  split; auto using tree_not_summary.
Qed.

Lemma printed_groups : forall t first rest, pg_tree_printable t -> summary_line first ->
    group_lines (pg_text_lines t ++ first :: rest) = (pg_tree_groups 0 t, join [nl] (first :: rest)).
Proof.
  intros [n cs] first rest [H _] HS. cbn [preorder] in H. inversion H as [|? ? Hn Hcs]; subst.
  unfold pg_text_lines. cbn [pg_tree_groups concat pg_node_lines pg_below app].
  set (top := pn_desc n ++ pg_numbers n). set (infos := map (fun x => spaces 2 ++ x) (pn_infos n)).
  set (below := flat_map (pg_tree_groups 1) cs).
  assert (Htop : ~ summary_line top).
  { intros K. apply summary_colon in K. revert K. unfold top. no_paren; [apply Hn|now apply numbers_no_colon]. }
  assert (Hbody : Forall (fun l => ~ summary_line l) (infos ++ concat below)).
  { apply Forall_app. split; [apply (infos_not_summary 1)|apply forest_not_summary]. }
  assert (Es : match_string summary_reg top = false).
  { destruct (match_string summary_reg top) eqn:E; auto. apply summary_iff in E. tauto. }
  unfold group_lines. cbn [app group_loop]. rewrite Es. cbn [Nat.eqb]. cbv zeta iota.
  rewrite group_loop_spec; auto; [|congruence].
  destruct (regroup_infos infos [top] LArrow (concat below)) as (p & Hp & E).
  { apply infos_kind. apply Hn. } { congruence. }
  rewrite E, regroup_groups; auto. now apply forest_good.
Qed.

(** ** Nodes *)
Lemma metric_prefix : forall i s x, match_at metric_reg i s = Some x -> exists u, s = lit "(cost=" ++ u.
Proof. intros i s x H. eapply match_prefix; exact H. Qed.
Lemma not_metric : forall l, ~ occurs (lit "(cost=") l -> match_string metric_reg l = false.
Proof. intros l H. unfold match_string. now rewrite (find_absent _ _ _ metric_prefix H). Qed.
Lemma is_metric : forall pre e i c r w post, pg_estimate_means e i c r w ->
    match_string metric_reg (pre ++ pg_estimate_text e ++ post) = true.
Proof.
  intros pre e i c r w post He. apply match_string_iff.
  assert (HX : exists v, pg_estimate_text e = lit "(cost=" ++ v ++ lit ")" /\ v <> [] /\ forallb is_dot v = true).
  { exists (g_init e ++ lit ".." ++ g_cost e ++ lit " rows=" ++ g_rows e ++ lit " width=" ++ g_width e).
    split; [|split].
    - unfold pg_estimate_text. now rewrite <- !app_assoc.
    - destruct (g_init e); discriminate.
    - apply forallb_forall. intros x Hx.
      assert (Hn : x <> nl).
      { intros ->. apply (pg_estimate_no nl e i c r w) in He; try reflexivity. apply He.
        unfold pg_estimate_text. apply in_app_iff. right. rewrite !app_assoc. apply in_app_iff. left.
        rewrite <- !app_assoc. exact Hx. }
      unfold is_dot. apply negb_true_iff. now apply N.eqb_neq. }
  destruct HX as (v & -> & Hv & Hd).
  exists pre, ((lit "(cost=" ++ v ++ lit ")") ++ post), (length pre + 6 + length v + 1), post, [].
  split; auto. unfold metric_reg. cbn [cats]. rewrite <- !app_assoc.
  eapply M_Cat; [apply M_str_intro|]. eapply M_Cat; [apply M_plus_intro; eauto|].
  eapply M_Cat; [apply M_ch_intro|]. 
  replace (length pre + 6 + length v + 1) with (S (length pre + length (lit "(cost=") + length v)) by (simpl; lia).
  apply M_AltR. constructor.
Qed.

Lemma printed_metrics : forall h n, ~ In 40%N h -> pg_printable n ->
    exists i c r w f v r' l,
      parse_estimation (h ++ pn_desc n ++ pg_numbers n) = Ok (i, c, r, w) /\
      parse_actual (h ++ pn_desc n ++ pg_numbers n) = Ok (f, v, r', l) /\
      (exists init cost rows width, pg_estimate_means (pn_estimate n) init cost rows width /\
        same_number i (Some init) /\ same_number c (Some cost) /\ r = Some rows /\ w = Some width) /\
      match pn_actual n with
      | Some a => exists first avg rows loops, actual_means a first avg rows loops /\
          same_number f (Some first) /\ same_number v (Some avg) /\ r' = Some rows /\ l = Some loops
      | None => f = None /\ v = None /\ r' = None /\ l = None
      end.
Proof.
  intros h n Hh (_ & HC & HA & _ & _ & (init & cost & rows & width & HE) & HM).
  set (act := match pn_actual n with Some a => lit " " ++ actual_text a | None => lit " (never executed)" end).
  assert (H1 : exists f c, parse_estimation (h ++ pn_desc n ++ pg_numbers n) = Ok (Some f, Some c, Some rows, Some width) /\
      (f == init)%Q /\ (c == cost)%Q).
  { destruct (parse_pg_estimation_printed (h ++ pn_desc n ++ lit "  ") (pn_estimate n) init cost rows width act HE)
      as (f & c & HP & Hf & Hc).
    { rewrite <- (app_nil_r (lit "  ")). apply occurs_desc; auto. intros H. apply occurs_head in H.
      simpl in H. intuition discriminate. }
    exists f, c. split; auto. unfold pg_numbers. fold act. rewrite <- !app_assoc in HP. exact HP. }
  destruct H1 as (f1 & c1 & E1 & Hf1 & Hc1).
  assert (HF : freeb 97 (pg_estimate_text (pn_estimate n)) = true) by (eapply pg_estimate_free; eassumption).
  assert (H2 : exists f v r l, parse_actual (h ++ pn_desc n ++ pg_numbers n) = Ok (f, v, r, l) /\
      match pn_actual n with
      | Some a => exists first avg rows loops, actual_means a first avg rows loops /\
          same_number f (Some first) /\ same_number v (Some avg) /\ r = Some rows /\ l = Some loops
      | None => f = None /\ v = None /\ r = None /\ l = None
      end).
  { destruct (pn_actual n) as [a|] eqn:EA.
    - destruct HM as (first & avg & rw & loops & HM).
      destruct (parse_actual_printed (h ++ pn_desc n ++ lit "  " ++ pg_estimate_text (pn_estimate n) ++ lit " ")
                  a first avg rw loops [] HM) as (f & v & HP & Hf & Hv).
      { apply occurs_desc; auto. apply freeb_occurs. free. exact HF. }
      exists (Some f), (Some v), (Some rw), (Some loops). split; [|exists first, avg, rw, loops; simpl; auto].
      unfold pg_numbers. rewrite EA. rewrite app_nil_r in HP. rewrite <- !app_assoc in HP. exact HP.
    - exists None, None, None, None. split; auto.
      apply parse_actual_absent. unfold pg_numbers. rewrite EA. apply occurs_desc; auto.
      apply freeb_occurs. free. exact HF. }
  destruct H2 as (f & v & r & l & E2 & R2).
  exists (Some f1), (Some c1), (Some rows), (Some width), f, v, r, l.
  split; auto. split; auto. split; auto. exists init, cost, rows, width. simpl. auto.
Qed.

Lemma spaces_no_paren : forall k, ~ In 40%N (spaces k).
Proof. intros k H. apply repeat_spec in H. discriminate. Qed.

Lemma parse_printed_node : forall ind n, pg_printable n -> (ind = 0 -> flush_left (pn_desc n)) ->
    exists v, shows (pg_node_lines ind n) v /\ tn_space v = Z.of_nat (2 * ind) /\ pg_reads_back ind n v.
Proof.
  intros ind n H Htop.
  assert (HX : exists h line0 others, ~ In 40%N h /\
     metric_line (pg_node_lines ind n) = h ++ pn_desc n ++ pg_numbers n /\
     pg_node_lines ind n = (spaces (2 * ind) ++ line0) :: others /\
     match line0 with [] => True | c :: _ => is_space c = false end).
  { pose proof H as (_ & _ & _ & HL & _ & (i & c & r & w & HE) & _).
    assert (HMet : forall h rest, metric_line ((h ++ pn_desc n ++ pg_numbers n) :: rest) = h ++ pn_desc n ++ pg_numbers n).
    { intros h rest. cbn [metric_line]. unfold pg_numbers.
      replace (h ++ pn_desc n ++ lit "  " ++ pg_estimate_text (pn_estimate n) ++
        match pn_actual n with Some a => lit " " ++ actual_text a | None => lit " (never executed)" end) with
        ((h ++ pn_desc n ++ lit "  ") ++ pg_estimate_text (pn_estimate n) ++
        match pn_actual n with Some a => lit " " ++ actual_text a | None => lit " (never executed)" end)
        by (now rewrite <- !app_assoc).
      rewrite (is_metric _ _ i c r w); auto. }
    destruct ind as [|ind]; cbn [pg_node_lines].
    - exists [], (pn_desc n ++ pg_numbers n). eexists. split; [tauto|]. split; [apply (HMet [])|].
      split; [reflexivity|]. specialize (Htop eq_refl). unfold flush_left in Htop.
      destruct (pn_desc n); [tauto|exact Htop].
    - destruct (pn_label n) as [l|].
      + exists (spaces (2 * (S ind + 1)) ++ lit "->  "), l. eexists. split.
        * no_paren; [apply spaces_no_paren|now apply lit_no].
        * split; [|split; [reflexivity|]].
          { cbn [metric_line app]. rewrite not_metric.
            - rewrite <- app_assoc. rewrite app_assoc. rewrite app_assoc. rewrite <- app_assoc. apply HMet.
            - intros K. apply occurs_after in K; [|apply spaces_no_paren]. tauto. }
          { destruct HL as (_ & HL & _). unfold flush_left in HL. destruct l; tauto. }
      + exists (spaces (2 * S ind) ++ lit "->  "), (lit "->  " ++ pn_desc n ++ pg_numbers n). eexists. split.
        * no_paren; [apply spaces_no_paren|now apply lit_no].
        * split; [|split; [reflexivity|reflexivity]].
          cbn [app]. rewrite <- app_assoc. rewrite app_assoc. rewrite app_assoc. rewrite <- app_assoc. apply HMet. }
  destruct HX as (h & line0 & others & Hh & HM & HG & H0).
  destruct (printed_metrics h n Hh H) as (i & c & r & w & f & v & r' & l & E1 & E2 & R1 & R2).
  destruct (find_bot_spaces (spaces (2 * ind)) line0) as (m & Hm & Ht); auto.
  { apply forall_forallb. apply spaces_space. }
  eexists. split; [|split].
  - exists (2 * ind). eexists. split; [|reflexivity]. unfold parse_node. rewrite HM, E1. cbn [obind].
    rewrite E2. cbn [obind]. rewrite HG. cbv zeta.
    unfold space_reg. rewrite Hm, Ht, byte_len_spaces by (apply forall_forallb; apply spaces_space).
    unfold spaces at 1. rewrite repeat_length. rewrite <- HG. reflexivity.
  - reflexivity.
  - unfold pg_reads_back. cbn [tn_node rn_lines rn_table rn_init_cost rn_cost rn_rows rn_width rn_time_first rn_time_avg rn_returned rn_loops].
    split; auto. split; [apply pg_table_exact|]. split; auto.
Qed.

(** ** The whole text *)
Definition shown (g : list gostring) : tree_node :=
  match parse_node g with Ok (sp, r) => {| tn_node := r; tn_space := Z.of_nat sp |} | _ => root_node end.
Lemma shows_shown : forall g v, shows g v -> v = shown g.
Proof. intros g v (sp & r & E & ->). unfold shown. now rewrite E. Qed.

Fixpoint replace_nodes (ind : nat) (t : tree pg_node) : tree tree_node :=
  match t with Node n cs => Node (shown (pg_node_lines ind n)) (map (replace_nodes (pg_below ind n)) cs) end.
Lemma replace_preorder : forall t ind, preorder (replace_nodes ind t) = map shown (pg_tree_groups ind t).
Proof.
  apply (tree_ind' (fun t => forall ind, preorder (replace_nodes ind t) = map shown (pg_tree_groups ind t))).
  intros n cs IH ind. cbn [replace_nodes preorder pg_tree_groups map]. f_equal.
  induction IH as [|t ts Ht IH IH']; auto. cbn [map flat_map]. now rewrite map_app, Ht, IH'.
Qed.
Lemma val_space : forall ind n cs, pg_printable n -> (ind = 0 -> flush_left (pn_desc n)) ->
    tn_space (t_val (replace_nodes ind (Node n cs))) = Z.of_nat (2 * ind).
Proof.
  intros ind n cs Hn Ht. cbn [replace_nodes t_val].
  destruct (parse_printed_node ind n Hn Ht) as (v & Hv & Hs & _). now rewrite <- (shows_shown _ _ Hv).
Qed.
Lemma forest_space : forall cs k, Forall pg_printable (flat_map preorder cs) ->
    Forall (fun c => tn_space (t_val c) = Z.of_nat (2 * S k)) (map (replace_nodes (S k)) cs).
Proof.
  induction cs as [|[n ds] cs IH]; intros k H; [constructor|].
  cbn [flat_map preorder] in H. apply Forall_app in H. destruct H as [H1 H2].
  inversion H1 as [|? ? Hn _]; subst. cbn [map]. constructor; auto. apply val_space; auto. congruence.
Qed.
Lemma equal_falling : forall (ts : list (tree tree_node)) z, Forall (fun c => tn_space (t_val c) = z) ts ->
    zfalling tn_space ts.
Proof.
  induction ts as [|t ts IH]; intros z H; [constructor|]. inversion H as [|? ? Ht Hts]; subst.
  destruct ts as [|u ts]; [constructor|]. inversion Hts as [|? ? Hu _]; subst. constructor; [lia|]. now apply (IH _ Hts).
Qed.
Lemma below_more : forall ind n, ind < pg_below ind n.
Proof. intros [|ind] n; simpl; [lia|]. destruct (pn_label n); lia. Qed.
Lemma replace_indented : forall t ind, Forall pg_printable (preorder t) -> (ind = 0 -> flush_left (pn_desc (t_val t))) ->
    zindented tn_space (replace_nodes ind t).
Proof.
  apply (tree_ind' (fun t => forall ind, Forall pg_printable (preorder t) ->
    (ind = 0 -> flush_left (pn_desc (t_val t))) -> zindented tn_space (replace_nodes ind t))).
  intros n cs IH ind H Ht. cbn [preorder] in H. inversion H as [|? ? Hn Hcs]; subst. cbn [t_val] in Ht.
  pose proof (val_space ind n cs Hn Ht) as HV. cbn [replace_nodes] in *. cbn [t_val] in HV.
  pose proof (below_more ind n) as HB.
  destruct (below_pos ind n) as (k & EK). rewrite EK in *.
  pose proof (forest_space cs k Hcs) as HS. constructor.
  - eapply Forall_impl; [|exact HS]. intros c Hc. cbv beta in Hc. rewrite Hc, HV. lia.
  - eapply equal_falling. exact HS.
  - clear - IH Hcs. induction IH as [|t ts Ht IH IH']; [constructor|].
    cbn [flat_map] in Hcs. apply Forall_app in Hcs. destruct Hcs. cbn [map]. constructor; auto.
    apply Ht; auto. congruence.
Qed.
Lemma replace_mirrors : forall t ind, Forall pg_printable (preorder t) -> (ind = 0 -> flush_left (pn_desc (t_val t))) ->
    pg_mirrors pg_reads_back ind t (replace_nodes ind t).
Proof.
  apply (tree_ind' (fun t => forall ind, Forall pg_printable (preorder t) ->
    (ind = 0 -> flush_left (pn_desc (t_val t))) -> pg_mirrors pg_reads_back ind t (replace_nodes ind t))).
  intros n cs IH ind H Ht. cbn [preorder] in H. inversion H as [|? ? Hn Hcs]; subst. cbn [t_val] in Ht.
  cbn [replace_nodes]. constructor.
  - destruct (parse_printed_node ind n Hn Ht) as (v & Hv & _ & HR). now rewrite <- (shows_shown _ _ Hv).
  - destruct (below_pos ind n) as (k & ->). clear - IH Hcs. induction IH as [|t ts Ht IH IH']; [constructor|].
    cbn [flat_map] in Hcs. apply Forall_app in Hcs. destruct Hcs. cbn [map]. constructor; auto.
    apply Ht; auto. congruence.
Qed.
Lemma groups_parse : forall t ind, Forall pg_printable (preorder t) -> (ind = 0 -> flush_left (pn_desc (t_val t))) ->
    Forall (fun g => exists v, shows g v) (pg_tree_groups ind t).
Proof.
  apply (tree_ind' (fun t => forall ind, Forall pg_printable (preorder t) ->
    (ind = 0 -> flush_left (pn_desc (t_val t))) -> Forall (fun g => exists v, shows g v) (pg_tree_groups ind t))).
  intros n cs IH ind H Ht. cbn [preorder] in H. inversion H as [|? ? Hn Hcs]; subst. cbn [t_val] in Ht.
  cbn [pg_tree_groups]. constructor.
  - destruct (parse_printed_node ind n Hn Ht) as (v & Hv & _). eauto.
  - destruct (below_pos ind n) as (k & ->). clear - IH Hcs. induction IH as [|t ts Ht IH IH']; [constructor|].
    cbn [flat_map] in *. apply Forall_app in Hcs. destruct Hcs. apply Forall_app. split; auto.
    apply Ht; auto. congruence.
Qed.

Theorem pg_roundtrip : forall t first rest, pg_tree_printable t -> summary_line first ->
    exists t', build_explain (pg_text_lines t ++ first :: rest) = Ok (Node root_node [t'], join [nl] (first :: rest)) /\
      pg_mirrors pg_reads_back 0 t t'.
Proof.
  intros t first rest Ht HS. exists (replace_nodes 0 t). destruct Ht as [HF HT].
  split; [|apply replace_mirrors; auto].
  pose proof (build_explain_spec (pg_text_lines t ++ first :: rest)) as H.
  rewrite printed_groups in H by (auto; split; auto). cbn [fst snd] in H.
  pose proof (groups_parse t 0 HF (fun _ => HT)) as HG.
  destruct (build_explain (pg_text_lines t ++ first :: rest)) as [[t' summary]|m|]; [| |elim H].
  - destruct H as (nodes & H1 & H2 & ->). f_equal. f_equal.
    assert (EN : nodes = flat_map preorder [replace_nodes 0 t]).
    { cbn [flat_map]. rewrite app_nil_r, replace_preorder. clear - H1.
      induction H1 as [|g v gs vs Hv H IH]; auto. cbn [map]. f_equal; auto. now apply shows_shown. }
    rewrite EN, zrun_closed in H2; [congruence|..].
    + constructor.
    + constructor; auto. apply replace_indented; auto.
    + constructor; auto. destruct t as [n cs]. cbn [t_val] in HT. cbn [preorder] in HF. inversion HF; subst.
      rewrite val_space; auto. simpl. lia.
  - destruct H as (g & Hin & Hg). rewrite Forall_forall in HG. destruct (HG _ Hin) as (v & sp & r & E & _). congruence.
Qed.
