(** C28-C33: reading EXPLAIN ANALYZE texts. *)
From Coq Require Import String List NArith ZArith QArith Bool Lia Arith.
From Verif Require Import Base Dec Regex ExplainTree ExplainSpec ExplainLineSpec ExplainLineProofs ExplainTableProofs
  PgExplainSpec PgExplainProofs PgPrintSpec ExplainNodeProofs SingleTable SingleTableSpec SingleTableProofs.
From Verif Require MysqlExplain MysqlExplainProofs MysqlExplainRoundtrip PgExplain PgExplainTreeProofs PgExplainRoundtrip.
Import ListNotations.
Local Open Scope string_scope.
Local Open Scope list_scope.
Local Open Scope nat_scope.

(** ** Deciding the hypotheses of concrete examples *)
Fixpoint hasb (p s : gostring) : bool :=
  (starts_with p s || match s with [] => false | _ :: s' => hasb p s' end)%bool.
Lemma starts_with_app : forall p b, starts_with p (p ++ b) = true.
Proof. induction p as [|x p IH]; intros b; auto. simpl. now rewrite N.eqb_refl, IH. Qed.
Lemma hasb_not : forall p s, hasb p s = false -> ~ occurs p s.
Proof.
  intros p s H (a & b & ->). induction a as [|x a IH].
  - destruct (p ++ b) eqn:E; cbn [hasb app] in H; rewrite ?E in H; cbn [hasb] in H;
      rewrite <- E, starts_with_app in H; discriminate.
  - cbn [app hasb] in H. apply orb_false_iff in H. tauto.
Qed.
Lemma digits_dec : forall w, forallb is_digit w = true -> digits w.
Proof. intros w H. apply digits_forallb. exact H. Qed.
Lemma numeral_dot : forall a b q, forallb is_digit a = true -> forallb is_digit b = true -> a <> [] -> b <> [] ->
    (q == decimal_value a b)%Q -> numeral (a ++ 46%N :: b) q.
Proof. intros a b q Ha Hb Na Nb H. exists a, b. repeat (split; auto using digits_dec). Qed.
Lemma numeral_int : forall a q, forallb is_digit a = true -> a <> [] -> (q == decimal_value a [])%Q -> numeral a q.
Proof. intros a q Ha Na H. exists a, []. repeat (split; auto using digits_dec); try constructor. Qed.
Lemma count_dec : forall w z, forallb is_digit w = true -> w <> [] -> z = Z.of_N (place_value w) -> (z < 2 ^ 63)%Z -> count w z.
Proof. intros. split; auto. split; auto using digits_dec. Qed.
Ltac numeral := first
  [ eapply (numeral_dot (lit "0")); [reflexivity|reflexivity|discriminate|discriminate|apply Qeq_refl]
  | eapply (numeral_dot (lit "1")); [reflexivity|reflexivity|discriminate|discriminate|apply Qeq_refl]
  | eapply (numeral_dot (lit "20")); [reflexivity|reflexivity|discriminate|discriminate|apply Qeq_refl] ].
Ltac fits := unfold fits; vm_compute; reflexivity.
Ltac cnt := apply count_dec; [reflexivity|discriminate|reflexivity|reflexivity].

(** ** C28: MySQL plans *)

(** The result is exactly the tree whose nodes, in pre-order and each at the depth
    of its line, are the non-empty lines read one by one. *)
Theorem mysql_explain_exact : forall text t,
    MysqlExplain.build_explain text = Ok t <->
    t_val t = MysqlExplain.empty_line /\
    Forall2 (fun line node => MysqlExplain.parse_line line = Ok node)
      (filter (fun l => match l with [] => false | _ => true end) (split nl text))
      (forest_depths 0 (t_children t)).
Proof. exact MysqlExplainProofs.build_explain_iff. Qed.

(** The depth of a line is a fourth of its leading white space. *)
Theorem mysql_line_depth : forall ws rest d l, Forall (fun c => is_space c = true) ws ->
    match rest with [] => True | c :: _ => is_space c = false end ->
    MysqlExplain.parse_line (ws ++ rest) = Ok (d, l) -> d = length ws / 4.
Proof.
  intros ws rest d l Hw Hr H. pose proof (mysql_line_reads_lemma (ws ++ rest)) as HR. rewrite H in HR.
  destruct HR as [-> _]. now apply MysqlExplainRoundtrip.nest_of_spec.
Qed.

(** It succeeds iff every line can be read and none is more than one level below
    its predecessor; it never crashes; the error says which. *)
Theorem mysql_explain_outcome : forall text,
    let lines := filter (fun l => match l with [] => false | _ => true end) (split nl text) in
    ((exists t, MysqlExplain.build_explain text = Ok t) <->
     exists nodes, Forall2 (fun line node => MysqlExplain.parse_line line = Ok node) lines nodes /\
                   no_jump (map fst nodes)) /\
    MysqlExplain.build_explain text <> Panic /\
    (forall m, MysqlExplain.build_explain text = Err m ->
       m = lit "invalid result from EXPLAIN ANALYZE" \/
       exists line, In line lines /\ MysqlExplain.parse_line line = Err m).
Proof.
  intros text lines. pose proof (MysqlExplainProofs.build_explain_spec text) as H. split; [|split].
  - split.
    + intros (t & E). rewrite E in H. destruct H as (_ & items & H1 & _ & H2). exists items. auto.
    + intros HE. destruct (MysqlExplain.build_explain text) as [t|m|]; [eauto| |elim H]. elim H. exact HE.
  - intros E. now rewrite E in H.
  - intros m E. destruct (mysql_build_error _ _ E) as [K|(line & H1 & H2 & H3)]; auto. right. exists line. split; auto.
    apply filter_In. split; auto. destruct line; congruence.
Qed.

(** Printing any plan and reading it gives the plan back, with every number and
    table of every node. *)
Theorem mysql_explain_roundtrip : forall f, Forall mysql_printable (flat_map preorder f) ->
    exists f', MysqlExplain.build_explain (mysql_text f) = Ok (Node MysqlExplain.empty_line f') /\
      Forall2 (mirrors MysqlExplainRoundtrip.reads_back 0) f f'.
Proof. exact MysqlExplainRoundtrip.mysql_roundtrip. Qed.

Definition ex_actual : actual := Build_actual (lit "0.07") (lit "1.5") (lit "3") (lit "2").
Definition ex_mysql_scan : mysql_node :=
  {| mn_desc := lit "Table scan on users";
     mn_estimate := Some (Build_mysql_estimate None (lit "20.25") (Some (lit "200")));
     mn_actual := Some ex_actual |}.
Definition ex_mysql_filter : mysql_node :=
  {| mn_desc := lit "Filter: (users.email = 'a:b (c')";
     mn_estimate := Some (Build_mysql_estimate (Some (lit "0.25")) (lit "20.25") None);
     mn_actual := None |}.
Definition ex_mysql_plan : list (tree mysql_node) :=
  [Node ex_mysql_filter [Node ex_mysql_scan []; Node ex_mysql_filter [Node ex_mysql_scan []]]].
Example ex_mysql_text : mysql_text [Node ex_mysql_filter [Node ex_mysql_scan []]] =
  lit "-> Filter: (users.email = 'a:b (c')  (cost=0.25..20.25) (never executed)" ++ [nl] ++
  lit "    -> Table scan on users  (cost=20.25 rows=200) (actual time=0.07..1.5 rows=3 loops=2)" ++ [nl].
Proof. reflexivity. Qed.
Lemma ex_actual_means : exists f v r l, actual_means ex_actual f v r l.
Proof.
  eexists _, _, _, _. split; [numeral|]. split; [fits|]. split; [numeral|]. split; [fits|]. split; cnt.
Qed.
Example ex_mysql_printable : Forall mysql_printable (flat_map preorder ex_mysql_plan).
Proof.
  assert (HS : mysql_printable ex_mysql_scan).
  { split; [|split; [|split; [|split]]].
    - intros H. repeat destruct H as [H|H]; try discriminate. destruct H.
    - now apply hasb_not.
    - now apply hasb_not.
    - eexists None, _, (Some _). split; [exact I|]. split; [numeral|]. split; [fits|cnt].
    - exact ex_actual_means. }
  assert (HF : mysql_printable ex_mysql_filter).
  { split; [|split; [|split; [|split]]].
    - intros H. repeat destruct H as [H|H]; try discriminate. destruct H.
    - now apply hasb_not.
    - now apply hasb_not.
    - eexists (Some _), _, None. split; [split; [numeral|fits]|]. split; [numeral|]. split; [fits|exact I].
    - exact I. }
  unfold ex_mysql_plan. cbn [preorder flat_map app].
  auto using Forall_cons, Forall_nil.
Qed.
Example ex_mysql_jump : exists m, MysqlExplain.build_explain
  (lit "-> Limit" ++ [nl] ++ lit "        -> Table scan on t") = Err m.
Proof. eexists. vm_compute. reflexivity. Qed.

(** ** C29: MySQL lines *)

(** Every line: the table is the one the phrases name, the numbers stand in the line
    in a phrase of the expected form, absent phrases give null; an error only if
    such a phrase has an unreadable number; no crash. *)
Theorem mysql_line_reads : forall line,
    match MysqlExplain.parse_line line with
    | Ok (_, l) =>
        MysqlExplain.rl_text l = line /\ mysql_table line (MysqlExplain.rl_table l) /\
        mysql_estimate_stands line (MysqlExplain.rl_init_cost l) (MysqlExplain.rl_cost l) (MysqlExplain.rl_rows l) /\
        actual_stands line (MysqlExplain.rl_time_first l) (MysqlExplain.rl_time_avg l)
          (MysqlExplain.rl_returned l) (MysqlExplain.rl_loops l)
    | Err _ => mysql_estimate_unreadable line \/ actual_unreadable line
    | Panic => False
    end.
Proof.
  intros line. pose proof (mysql_line_reads_lemma line) as H.
  destruct (MysqlExplain.parse_line line) as [[d l]|m|]; auto. tauto.
Qed.
(** A line names at most one table in this sense. *)
Theorem mysql_table_unique : forall line a b, mysql_table line a -> mysql_table line b -> a = b.
Proof. exact mysql_table_fun. Qed.
(** A printed line: at its depth, with exactly the printed numbers. *)
Theorem mysql_line_printed : forall d n, mysql_printable n ->
    exists l, MysqlExplain.parse_line (mysql_node_text d n) = Ok (d, l) /\ MysqlExplainRoundtrip.reads_back d n l.
Proof. exact MysqlExplainRoundtrip.parse_printed_line. Qed.

Example ex_mysql_line : exists l,
  MysqlExplain.parse_line (lit "    -> Table scan on users  (cost=20.25 rows=200) (actual time=0.07..1.5 rows=3 loops=2)") = Ok (1, l) /\
  MysqlExplain.rl_table l = lit "users" /\ MysqlExplain.rl_rows l = Some 200%Z /\ MysqlExplain.rl_loops l = Some 2%Z /\
  same_number (MysqlExplain.rl_cost l) (Some (81 # 4)%Q) /\ same_number (MysqlExplain.rl_time_avg l) (Some (3 # 2)%Q).
Proof.
  assert (H : forall x, (match x with
     | Ok (d, l) => d = 1 /\ MysqlExplain.rl_table l = lit "users" /\ MysqlExplain.rl_rows l = Some 200%Z /\
         MysqlExplain.rl_loops l = Some 2%Z /\
         same_number (MysqlExplain.rl_cost l) (Some (81 # 4)%Q) /\ same_number (MysqlExplain.rl_time_avg l) (Some (3 # 2)%Q)
     | _ => False end) -> exists l, x = Ok (1, l) /\ MysqlExplain.rl_table l = lit "users" /\ MysqlExplain.rl_rows l = Some 200%Z /\
         MysqlExplain.rl_loops l = Some 2%Z /\
         same_number (MysqlExplain.rl_cost l) (Some (81 # 4)%Q) /\ same_number (MysqlExplain.rl_time_avg l) (Some (3 # 2)%Q)).
  { intros [[d l]| |] K; try tauto. destruct K as (-> & K). exists l. auto. }
  apply H. vm_compute. repeat split; reflexivity.
Qed.
(** "every phrase naming a table is about a table" is false: text inside a literal
    counts. *)
Theorem mysql_table_in_literal_refuted : exists l,
  MysqlExplain.parse_line (lit "-> Filter: (users.note = 'based on facts')") = Ok (0, l) /\ MysqlExplain.rl_table l = lit "facts".
Proof. eexists. split; [vm_compute; reflexivity|reflexivity]. Qed.
(** Costs in scientific notation, as MySQL prints large ones, are not read. *)
Theorem mysql_scientific_cost_refuted : exists l,
  MysqlExplain.parse_line (lit "-> Table scan on t  (cost=1.02e+6 rows=9901234)") = Ok (0, l) /\
  MysqlExplain.rl_cost l = None /\ MysqlExplain.rl_rows l = None.
Proof. eexists. split; [vm_compute; reflexivity|split; reflexivity]. Qed.
Example ex_mysql_unreadable : exists m,
  MysqlExplain.parse_line (lit "-> Table scan on t  (cost=1.2.3 rows=1)") = Err m.
Proof. eexists. vm_compute. reflexivity. Qed.

(** ** C30: groups of PostgreSQL lines *)

(** With a summary after the plan: the plan's lines are cut exactly where nodes
    begin, and the summary is the rest. *)
Theorem pg_groups_exact : forall body first rest, body <> [] -> Forall (fun l => ~ summary_line l) body -> summary_line first ->
    exists groups, PgExplain.group_lines (body ++ first :: rest) = (groups, join [nl] (first :: rest)) /\
      cut_into body groups /\ Forall group_shape groups.
Proof.
  intros body first rest Hb HF HS.
  pose proof (group_lines_spec (body ++ first :: rest) body (first :: rest)) as H.
  assert (HX : summary_at (body ++ first :: rest) body (first :: rest)) by (repeat split; auto).
  specialize (H HX). destruct body as [|b body]; [congruence|]. destruct H as (groups & HC & HG).
  exists groups. split; auto. split; auto. eapply cut_into_shape; eauto.
Qed.
(** A list of lines is cut in at most one way. *)
Theorem pg_cut_unique : forall body g1 g2, cut_into body g1 -> cut_into body g2 -> g1 = g2.
Proof. exact cut_into_fun. Qed.
(** Without a summary the last node is lost, whatever the plan. *)
Theorem pg_groups_without_summary : forall lines, lines <> [] -> Forall (fun l => ~ summary_line l) lines ->
    exists groups last, cut_into lines (groups ++ [last]) /\ last <> [] /\ PgExplain.group_lines lines = (groups, []).
Proof.
  intros lines Hne HF. pose proof (group_lines_spec lines lines []) as H.
  assert (HX : summary_at lines lines []) by (repeat split; auto; now rewrite app_nil_r). specialize (H HX).
  destruct lines as [|l lines]; [congruence|]. destruct H as (groups & HC & HG).
  assert (HN : groups <> []) by (intros ->; destruct HC as [HC _]; discriminate).
  exists (removelast groups), (List.last groups []). rewrite <- app_removelast_last by auto. split; auto. split; auto.
  destruct HC as (_ & HC & _). rewrite Forall_forall in HC. apply HC.
  rewrite (app_removelast_last [] HN) at 2. apply in_app_iff. right. left. reflexivity.
Qed.
(** A text that starts with a summary line has no groups and no summary. *)
Theorem pg_groups_summary_first : forall first rest, summary_line first ->
    PgExplain.group_lines (first :: rest) = ([], []).
Proof.
  intros first rest H. apply (group_lines_spec (first :: rest) [] (first :: rest)). repeat split; auto.
Qed.

Definition ex_pg_lines : list gostring :=
  [lit "Hash Join  (cost=1.5..20.25 rows=3 width=8) (actual time=0.07..1.5 rows=3 loops=2)";
   lit "  Hash Cond: (a.id = b.id)";
   lit "  ->  Seq Scan on a  (cost=0.25..1.5 rows=3 width=8) (never executed)";
   lit "  SubPlan 1";
   lit "    ->  Seq Scan on b  (cost=0.25..1.5 rows=3 width=8) (never executed)"].
Definition ex_summary : gostring := lit "Planning Time: 0.1 ms".
Example ex_summary_line : summary_line ex_summary.
Proof. apply summary_iff. vm_compute. reflexivity. Qed.
Lemma not_summary : forall l, match_string PgExplain.summary_reg l = false -> ~ summary_line l.
Proof. intros l H K. apply summary_iff in K. congruence. Qed.
Example ex_pg_body : Forall (fun l => ~ summary_line l) ex_pg_lines.
Proof. repeat constructor; apply not_summary; vm_compute; reflexivity. Qed.
Example ex_pg_groups : map (@List.length gostring) (fst (PgExplain.group_lines (ex_pg_lines ++ [ex_summary]))) = [2; 1; 2].
Proof. vm_compute. reflexivity. Qed.
(** "all nodes of a plan are kept" is false for a plan without summary. *)
Theorem pg_last_node_lost_refuted : exists lines, lines = ex_pg_lines /\
  concat (fst (PgExplain.group_lines lines)) = firstn 3 lines /\ length lines = 5.
Proof. exists ex_pg_lines. split; [reflexivity|split; [vm_compute; reflexivity|reflexivity]]. Qed.

(** ** C31: PostgreSQL plans *)

(** The result is exactly the tree whose nodes, in pre-order, are those the groups
    become, each below the nearest earlier node that is indented less. *)
Theorem pg_explain_exact : forall lines t summary, PgExplain.build_explain lines = Ok (t, summary) <->
    t_val t = PgExplain.root_node /\ summary = snd (PgExplain.group_lines lines) /\
    let nodes := flat_map preorder (t_children t) in
    Forall2 becomes (fst (PgExplain.group_lines lines)) nodes /\
    parents_nearest (map (fun v => Z.to_nat (PgExplain.tn_space v)) nodes) (forest_parents None 0 (t_children t)).
Proof. exact pg_build_iff. Qed.
(** The indentation of a node is the leading white space of its first line. *)
Theorem pg_node_indentation : forall ws rest lines v, Forall (fun c => is_space c = true) ws ->
    match rest with [] => True | c :: _ => is_space c = false end ->
    becomes ((ws ++ rest) :: lines) v -> PgExplain.tn_space v = Z.of_nat (length ws).
Proof.
  intros ws rest lines v Hw Hr (sp & E & ->). f_equal. eapply pg_node_space; eauto.
Qed.
(** It never crashes, and fails only if a node cannot be read. *)
Theorem pg_explain_outcome : forall lines,
    ((exists r, PgExplain.build_explain lines = Ok r) <->
     exists nodes, Forall2 becomes (fst (PgExplain.group_lines lines)) nodes) /\
    PgExplain.build_explain lines <> Panic /\
    (forall m, PgExplain.build_explain lines = Err m ->
       exists g, In g (fst (PgExplain.group_lines lines)) /\ PgExplain.parse_node g = Err m).
Proof.
  intros lines. pose proof (PgExplainTreeProofs.build_explain_spec lines) as H. split; [|split].
  - split.
    + intros ([t s] & E). apply pg_explain_exact in E. destruct E as (_ & _ & E & _). eauto.
    + intros (nodes & HF). destruct (PgExplain.build_explain lines) as [r|m|]; [eauto| |elim H].
      exfalso. destruct H as (g & Hin & Hg). clear - HF Hin Hg.
      induction HF as [|g' v gs vs (sp & E & _) HF IH]; [elim Hin|]. destruct Hin as [->|Hin]; [congruence|auto].
  - intros E. now rewrite E in H.
  - intros m E. now rewrite E in H.
Qed.
(** Printing any plan (with labels, conditions and a summary) and reading it gives
    the plan back. *)
Theorem pg_explain_roundtrip : forall t first rest, pg_tree_printable t -> summary_line first ->
    exists t', PgExplain.build_explain (pg_text_lines t ++ first :: rest) =
        Ok (Node PgExplain.root_node [t'], join [nl] (first :: rest)) /\
      pg_mirrors pg_reads_back 0 t t'.
Proof. exact PgExplainRoundtrip.pg_roundtrip. Qed.

Definition ex_pg_estimate : pg_estimate := Build_pg_estimate (lit "0.25") (lit "1.5") (lit "3") (lit "8").
Definition ex_pg_scan (label : option gostring) : pg_node :=
  {| pn_label := label; pn_desc := lit "Seq Scan on b"; pn_estimate := ex_pg_estimate; pn_actual := Some ex_actual;
     pn_infos := [lit "Filter: (b.id = 1)"] |}.
Definition ex_pg_plan : tree pg_node :=
  Node {| pn_label := None; pn_desc := lit "Hash Join"; pn_estimate := ex_pg_estimate; pn_actual := None;
          pn_infos := [lit "Hash Cond: (a.id = b.id)"] |}
    [Node (ex_pg_scan None) [Node (ex_pg_scan (Some (lit "SubPlan 1"))) []]; Node (ex_pg_scan None) []].
Example ex_pg_printed : pg_text_lines ex_pg_plan =
  [lit "Hash Join  (cost=0.25..1.5 rows=3 width=8) (never executed)";
   lit "  Hash Cond: (a.id = b.id)";
   lit "  ->  Seq Scan on b  (cost=0.25..1.5 rows=3 width=8) (actual time=0.07..1.5 rows=3 loops=2)";
   lit "        Filter: (b.id = 1)";
   lit "        SubPlan 1";
   lit "          ->  Seq Scan on b  (cost=0.25..1.5 rows=3 width=8) (actual time=0.07..1.5 rows=3 loops=2)";
   lit "                Filter: (b.id = 1)";
   lit "  ->  Seq Scan on b  (cost=0.25..1.5 rows=3 width=8) (actual time=0.07..1.5 rows=3 loops=2)";
   lit "        Filter: (b.id = 1)"].
Proof. reflexivity. Qed.
Lemma is_info : forall l, match_string PgExplain.info_reg l = true -> info_line l.
Proof. intros l. apply info_iff. Qed.
Lemma is_name : forall l, match_string PgExplain.info_reg l = false -> match_string PgExplain.arrow_reg l = false -> name_line l.
Proof.
  intros l H1 H2. split; intros K; [apply info_iff in K|apply arrow_iff in K]; congruence.
Qed.
Lemma ex_pg_estimate_means : exists i c r w, pg_estimate_means ex_pg_estimate i c r w.
Proof.
  eexists _, _, _, _. split; [numeral|]. split; [fits|]. split; [numeral|]. split; [fits|]. split; cnt.
Qed.
Example ex_pg_printable : pg_tree_printable ex_pg_plan.
Proof.
  assert (HS : forall label, label = None \/ label = Some (lit "SubPlan 1") -> pg_printable (ex_pg_scan label)).
  { intros label HL. split; [|split; [|split; [|split; [|split; [|split]]]]].
    - intros H. repeat destruct H as [H|H]; try discriminate. destruct H.
    - now apply hasb_not.
    - now apply hasb_not.
    - destruct HL as [->| ->]; cbn [pn_label ex_pg_scan]; [exact I|].
      split; [apply is_name; vm_compute; reflexivity|]. split; [reflexivity|now apply hasb_not].
    - repeat constructor. apply is_info. vm_compute. reflexivity.
    - exact ex_pg_estimate_means.
    - exact ex_actual_means. }
  split; [|reflexivity]. unfold ex_pg_plan. cbn [preorder flat_map app]. apply Forall_cons; [|repeat (apply Forall_cons; auto); constructor].
  split; [|split; [|split; [|split; [|split; [|split]]]]].
  - intros H. repeat destruct H as [H|H]; try discriminate. destruct H.
  - now apply hasb_not.
  - now apply hasb_not.
  - exact I.
  - repeat constructor. apply is_info. vm_compute. reflexivity.
  - exact ex_pg_estimate_means.
  - exact I.
Qed.

(** ** C32: PostgreSQL nodes *)
Theorem pg_node_reads : forall lines, lines <> [] ->
    match PgExplain.parse_node lines with
    | Ok (_, n) => PgExplain.rn_lines n = lines /\ pg_table lines (PgExplain.rn_table n) /\
        exists line, numbers_line lines line /\
          pg_estimate_stands line (PgExplain.rn_init_cost n) (PgExplain.rn_cost n) (PgExplain.rn_rows n) (PgExplain.rn_width n) /\
          actual_stands line (PgExplain.rn_time_first n) (PgExplain.rn_time_avg n) (PgExplain.rn_returned n) (PgExplain.rn_loops n)
    | Err _ => exists line, numbers_line lines line /\ (pg_estimate_unreadable line \/ actual_unreadable line)
    | Panic => False
    end.
Proof. exact pg_node_reads_lemma. Qed.
Theorem pg_table_unique : forall lines a b, pg_table lines a -> pg_table lines b -> a = b.
Proof. exact pg_table_fun. Qed.
Theorem pg_numbers_line_unique : forall lines a b, numbers_line lines a -> numbers_line lines b -> a = b.
Proof. exact numbers_line_fun. Qed.
(** A printed node: at its indentation, with exactly the printed numbers. *)
Theorem pg_node_printed : forall ind n, pg_printable n -> (ind = 0 -> flush_left (pn_desc n)) ->
    exists v, becomes (pg_node_lines ind n) v /\ PgExplain.tn_space v = Z.of_nat (2 * ind) /\ pg_reads_back ind n v.
Proof.
  intros ind n H Ht. destruct (PgExplainRoundtrip.parse_printed_node ind n H Ht) as (v & H1 & H2 & H3).
  exists v. split; auto. now apply becomes_shows.
Qed.
Example ex_pg_node : exists sp n, PgExplain.parse_node (firstn 1 ex_pg_lines) = Ok (sp, n) /\
  PgExplain.rn_width n = Some 8%Z /\ PgExplain.rn_loops n = Some 2%Z /\ same_number (PgExplain.rn_cost n) (Some (81 # 4)%Q).
Proof. eexists _, _. split; [vm_compute; reflexivity|]. split; [reflexivity|]. split; [reflexivity|vm_compute; reflexivity]. Qed.
(** The table is not always the table scanned: a schema is taken for it. *)
Theorem pg_schema_as_table_refuted : exists sp n,
  PgExplain.parse_node [lit "Seq Scan on public.users  (cost=0.25..1.5 rows=3 width=8)"] = Ok (sp, n) /\
  PgExplain.rn_table n = lit "public".
Proof. eexists _, _. split; [vm_compute; reflexivity|reflexivity]. Qed.

(** ** C33: results per table *)

(** Exactly when the function crashes, and exactly which tables and times it reports
    otherwise. *)
Theorem single_table_exact : forall t,
    match single_table_results t with
    | Ok rs => ~ indigestible t /\
        (forall r, In r rs -> exists n, result_head t n /\ sr_table r = en_table n /\ sr_time r = en_time n) /\
        (forall n, result_head t n -> exists r, In r rs /\ sr_table r = en_table n /\ sr_time r = en_time n)
    | Panic => indigestible t
    | Err _ => False
    end.
Proof. exact results_spec. Qed.
(** Every result is the table and the time of a node of the plan, never without a
    table; every table of the plan has a result. *)
Theorem single_table_covers : forall t rs, single_table_results t = Ok rs ->
    (forall r, In r rs -> sr_table r <> [] /\
       exists n, In n (preorder t) /\ sr_table r = en_table n /\ sr_time r = en_time n) /\
    (forall n, In n (preorder t) -> en_table n <> [] -> exists r, In r rs /\ sr_table r = en_table n).
Proof.
  intros t rs H. pose proof (single_table_exact t) as HE. rewrite H in HE. destruct HE as (_ & H1 & H2). split.
  - intros r Hr. destruct (H1 r Hr) as (n & (o & c & Hs & [Hne _] & <-) & K1 & K2). split; [unfold table_of in Hne; congruence|].
    exists (t_val c). split; auto. apply preorder_subtree. eauto.
  - intros n Hn Hne. apply preorder_subtree in Hn. destruct Hn as (o & c & Hs & <-).
    destruct (named_has_head t o c Hs Hne) as (m & Hm & Em). destruct (H2 m Hm) as (r & Hr & K & _).
    exists r. split; auto. unfold table_of in Em. congruence.
Qed.
Definition nd (t : string) (q : Q) (cs : list (tree explain_node)) : tree explain_node :=
  Node {| en_table := of_string t; en_time := q |} cs.
Definition ex_plan : tree explain_node := nd "" 9 [nd "a" 5 [nd "a" 4 []]; nd "b" 3 []].
Example ex_single_table : single_table_results ex_plan =
  Ok [Build_single_result (lit "a") 5; Build_single_result (lit "b") 3].
Proof. reflexivity. Qed.
(** "every plan has results" is false: joining a table with a sub-plan of another
    dereferences nil. *)
Theorem single_table_crash_refuted : single_table_results (nd "a" 5 [nd "a" 4 []; nd "b" 3 [nd "b" 2 []]]) = Panic.
Proof. reflexivity. Qed.
(** "every table is reported once" is false. *)
Theorem single_table_once_refuted : single_table_results (nd "a" 5 [nd "b" 4 []; nd "c" 3 []]) =
  Ok [Build_single_result (lit "a") 5; Build_single_result (lit "b") 4;
      Build_single_result (lit "a") 5; Build_single_result (lit "c") 3].
Proof. reflexivity. Qed.
(** "the time reported is that of the topmost node of the table" is false: a
    continuation after an elder sibling that continues begins anew. *)
Theorem single_table_topmost_refuted : single_table_results (nd "a" 5 [nd "a" 4 []; nd "a" 3 []]) =
  Ok [Build_single_result (lit "a") 5; Build_single_result (lit "a") 3].
Proof. reflexivity. Qed.

Print Assumptions mysql_explain_exact.
Print Assumptions mysql_line_depth.
Print Assumptions mysql_explain_outcome.
Print Assumptions mysql_explain_roundtrip.
Print Assumptions mysql_line_reads.
Print Assumptions mysql_table_unique.
Print Assumptions mysql_line_printed.
Print Assumptions mysql_table_in_literal_refuted.
Print Assumptions mysql_scientific_cost_refuted.
Print Assumptions pg_groups_exact.
Print Assumptions pg_cut_unique.
Print Assumptions pg_groups_without_summary.
Print Assumptions pg_groups_summary_first.
Print Assumptions pg_last_node_lost_refuted.
Print Assumptions pg_explain_exact.
Print Assumptions pg_node_indentation.
Print Assumptions pg_explain_outcome.
Print Assumptions pg_explain_roundtrip.
Print Assumptions pg_node_reads.
Print Assumptions pg_table_unique.
Print Assumptions pg_numbers_line_unique.
Print Assumptions pg_node_printed.
Print Assumptions pg_schema_as_table_refuted.
Print Assumptions single_table_exact.
Print Assumptions single_table_covers.
Print Assumptions single_table_crash_refuted.
Print Assumptions single_table_once_refuted.
Print Assumptions single_table_topmost_refuted.
