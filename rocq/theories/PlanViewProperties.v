(** C54, C77-C80: the plan panel of the page. *)
From Coq Require Import String List NArith ZArith QArith Qminmax Bool Lia Arith Permutation Lqa.
From Verif Require Import Base Dec ExplainTree ExplainSpec ExplainTreeProofs ExplainLineSpec PgExplainSpec PgPrintSpec
  IndexBuild PlanView PlanViewSpec PlanViewProofs ExplainProperties.
From Verif Require MysqlExplain MysqlExplainRoundtrip PgExplain.
Import ListNotations.
Local Open Scope string_scope.
Local Open Scope list_scope.
Local Open Scope nat_scope.

(** An Array.prototype.sort for the examples: insertion. *)
Fixpoint insert_bar {D} (b : bar D) (l : list (bar D)) : list (bar D) :=
  match l with
  | [] => [b]
  | c :: l' => if Nat.leb (b_num b) (b_num c) then b :: l else c :: insert_bar b l'
  end.
Definition sort_bars {D} (l : list (bar D)) : list (bar D) := fold_right insert_bar [] l.
Lemma sort_bars_ok : forall D, is_sort bar_less (@sort_bars D).
Proof.
  intros D l. induction l as [|b l [P S]]; cbn; [split; constructor|].
  assert (HP : forall l, Permutation (insert_bar b l) (b :: l)).
  { induction l0 as [|c l0 IH]; cbn; [auto|]. destruct (Nat.leb (b_num b) (b_num c)); [auto|].
    eapply perm_trans; [apply perm_skip, IH|apply perm_swap]. }
  split.
  - eapply perm_trans; [apply HP|now apply perm_skip].
  - clear P. fold (@sort_bars D l). induction S as [|c l0 S1 S2 IH]; cbn; [repeat constructor|].
    destruct (Nat.leb (b_num b) (b_num c)) eqn:E.
    + constructor; [|now constructor]. apply Nat.leb_le in E. constructor.
      * unfold bar_less. apply Nat.ltb_ge. exact E.
      * eapply Forall_impl; [|exact S1]. intros d Hd. unfold bar_less in *. apply Nat.ltb_ge in Hd. apply Nat.ltb_ge. lia.
    + constructor; auto. eapply Permutation_Forall; [apply Permutation_sym, HP|]. constructor; auto.
      apply Nat.leb_gt in E. unfold bar_less. apply Nat.ltb_ge. lia.
Qed.

(** ** C54: the timeline *)

(** One bar for every node, numbered from 0 in pre-order, labelled with its number;
    the client never fails on it. *)
Theorem timeline_numbered : forall D (end_time : D -> Q -> Q) srt l, is_sort bar_less srt ->
    exists bars, timeline end_time srt l = Ok bars /\
      map b_data bars = flat_map preorder l /\
      map b_num bars = seq 0 (length (flat_map preorder l)) /\
      Forall bar_label_ok bars.
Proof.
  intros D end_time srt l HS. destruct (timeline_spec end_time srt l HS) as (bts & E & H1 & H2 & H3).
  exists (flat_map preorder bts). pose proof (drawn_forest_data _ _ _ H1) as HD.
  split; [exact E|]. split; [exact HD|]. split; [|exact H2].
  rewrite <- HD, map_length. exact H3.
Qed.

(** The bars are those of trees of bars with the shape of the plan: each begins when
    the last of its children has ended. *)
Theorem timeline_times : forall D (end_time : D -> Q -> Q) srt l bars, is_sort bar_less srt ->
    timeline end_time srt l = Ok bars ->
    exists bts, Forall2 (drawn end_time) l bts /\ bars = flat_map preorder bts.
Proof.
  intros D end_time srt l bars HS HE. destruct (timeline_spec end_time srt l HS) as (bts & E & H1 & _).
  exists bts. rewrite E in HE. injection HE as <-. auto.
Qed.
(** In particular nothing below a node ends after it, and every bar can be seen. *)
Theorem drawn_nested : forall D (end_time : D -> Q -> Q) t bt, drawn end_time t bt ->
    Forall (fun b => (b_hi b <= b_hi (t_val bt))%Q /\ (b_lo b < b_hi b)%Q) (preorder bt).
Proof.
  intros D end_time. apply (tree_ind' (fun t => forall bt, drawn end_time t bt ->
    Forall (fun b => (b_hi b <= b_hi (t_val bt))%Q /\ (b_lo b < b_hi b)%Q) (preorder bt))).
  intros d cs HF bt HD. inversion HD as [d' cs' b bs H1 H2 H3]; subst d' cs' bt.
  destruct H3 as (start & _ & _ & K1 & K2 & _ & _ & _ & _ & K3 & _). cbn [preorder t_val]. constructor.
  - split; [apply Qle_refl|lra].
  - clear HD. induction H1 as [|c b1 cs bs HC HR IH]; [constructor|]. inversion HF as [|x y P1 P2]; subst.
    cbn [flat_map]. apply Forall_app. split.
    + eapply Forall_impl; [|apply P1; exact HC]. cbn beta. intros b0 [Q1 Q2]. split; [|exact Q2].
      assert (K : (b_hi (t_val b1) <= start)%Q) by (apply K1; now left). lra.
    + apply IH; auto. intros e He. apply K1. now right.
Qed.

Definition vm0 (text : gostring) (avg : Q) (loops : Z) : vm_node :=
  Build_vm_node text (lit "t") (lit "u") None None None None (Some 0%Q) (Some avg) (Some 1%Z) (Some loops).
Definition ex_plan : list (tree vm_node) :=
  [Node (vm0 (lit "-> Nested loop") (5 # 1) 1)
     [Node (vm0 (lit "    -> Scan") (2 # 1) 1) []; Node (vm0 (lit "    -> Lookup") (1 # 2) 4) []];
   Node (vm0 (lit "-> Other") 0 1) []].
Example ex_timeline : exists bars,
    timeline mysql_end sort_bars ex_plan = Ok bars /\
    map (fun b => vn_text (b_data b)) bars = [lit "-> Nested loop"; lit "    -> Scan"; lit "    -> Lookup"; lit "-> Other"] /\
    map b_x bars = [lit "0"; lit "1"; lit "2"; lit "3"] /\
    map (fun b => Qred (b_lo b)) bars = [2 # 1; 0; 0; -1 # 10000]%Q /\
    map (fun b => Qred (b_hi b)) bars = [5 # 1; 2 # 1; 2 # 1; 0]%Q.
Proof. eexists. repeat (split; [vm_compute; reflexivity|]). vm_compute. reflexivity. Qed.

(** ** C77: text and timeline agree *)

(** The page never fails on a plan, and shows nothing only if there is none. *)
Theorem plan_page_total : forall end_time srt v, is_sort bar_less srt ->
    match v with
    | None => plan_page end_time srt v = Ok None
    | Some l => exists p, plan_page end_time srt v = Ok (Some p) /\
        pp_texts p = map vn_text (flat_map preorder l) /\
        map (fun b => snd (b_data b)) (pp_bars p) = flat_map preorder l
    end.
Proof.
  intros end_time srt [l|] HS; [|reflexivity]. unfold plan_page. cbv zeta.
  rewrite shown_texts_spec by apply objects_distinct.
  destruct (timeline_numbered _ (fun d => end_time (snd d)) srt (forest_objects 0 l) HS) as (bars & E & H1 & _).
  rewrite E. cbn [obind]. eexists. split; [reflexivity|]. cbn [pp_texts pp_bars]. split.
  - rewrite <- map_map with (f := snd) (g := vn_text). now rewrite objects_preorder.
  - rewrite <- map_map with (f := b_data) (g := snd). rewrite H1. apply objects_preorder.
Qed.

(** Hovering over a bar puts in bold the text of the bar's own node; every text
    belongs to exactly one bar. *)
Theorem highlighted_text : forall end_time srt v p, is_sort bar_less srt ->
    plan_page end_time srt v = Ok (Some p) ->
    length (pp_texts p) = length (pp_bars p) /\
    (forall b, In b (pp_bars p) -> nth_error (pp_texts p) (b_num b) = Some (vn_text (snd (b_data b)))) /\
    (forall b c, In b (pp_bars p) -> In c (pp_bars p) -> b_num b = b_num c -> b = c).
Proof.
  intros end_time srt v p HS HE. destruct v as [l|]; [|discriminate].
  pose proof (plan_page_total end_time srt (Some l) HS) as (p' & E & H1 & H2).
  rewrite HE in E. injection E as <-.
  assert (HN : map b_num (pp_bars p) = seq 0 (length (pp_bars p))).
  { unfold plan_page in HE. cbv zeta in HE.
    destruct (shown_texts _ _); [|discriminate].
    destruct (timeline_numbered _ (fun d => end_time (snd d)) srt (forest_objects 0 l) HS) as (bars & E & K1 & K2 & _).
    rewrite E in HE. cbn [obind] in HE. injection HE as <-. cbn [pp_bars]. rewrite K2. f_equal.
    rewrite <- K1. now rewrite map_length. }
  assert (HT : pp_texts p = map (fun b => vn_text (snd (b_data b))) (pp_bars p)).
  { rewrite H1, <- H2, map_map. reflexivity. }
  assert (HB : forall b, In b (pp_bars p) -> nth_error (pp_bars p) (b_num b) = Some b).
  { intros b Hb. apply In_nth_error in Hb. destruct Hb as (i & Hi).
    assert (K : nth_error (map b_num (pp_bars p)) i = Some (b_num b)) by now apply map_nth_error.
    rewrite HN in K. assert (LI : i < length (pp_bars p)) by (apply nth_error_Some; congruence).
    rewrite (nth_error_nth' _ 0) in K by (now rewrite seq_length). rewrite seq_nth in K by auto.
    injection K as K. cbn in K. now subst i. }
  split; [|split].
  - rewrite HT. now rewrite map_length.
  - intros b Hb. rewrite HT. rewrite map_nth_error with (d := b); auto.
  - intros b c Hb Hc E. apply HB in Hb, Hc. rewrite E in Hb. congruence.
Qed.
Example ex_page : exists p, plan_page mysql_end sort_bars (Some ex_plan) = Ok (Some p) /\
    pp_texts p = [lit "-> Nested loop"; lit "    -> Scan"; lit "    -> Lookup"; lit "-> Other"] /\
    map b_num (pp_bars p) = [0; 1; 2; 3].
Proof. eexists. repeat (split; [vm_compute; reflexivity|]). vm_compute. reflexivity. Qed.
(** The objects' identity is needed: were a node the same object as another, its
    text would be left out and the later texts would move up. *)
Example ex_shared_object : shown_texts vn_text
    [Node (0, vm0 (lit "a") 1 1) [Node (1, vm0 (lit "b") 1 1) []; Node (1, vm0 (lit "b") 1 1) []; Node (2, vm0 (lit "c") 1 1) []]]
  = Some [lit "a"; lit "b"; lit "c"].
Proof. vm_compute. reflexivity. Qed.

(** ** C78: the page shows the text of EXPLAIN *)

(** MySQL: the lines are shown as they were printed, in their order; an empty text
    gives no panel. *)
Theorem mysql_plan_shown : forall srt text t, is_sort bar_less srt -> MysqlExplain.build_explain text = Ok t ->
    let lines := filter (fun l => match l with [] => false | _ => true end) (split nl text) in
    (lines = [] -> plan_page mysql_end srt (plan_view mysql_vm t) = Ok None) /\
    (lines <> [] -> exists p, plan_page mysql_end srt (plan_view mysql_vm t) = Ok (Some p) /\
       pp_texts p = lines /\ length (pp_bars p) = length lines).
Proof.
  intros srt text t HS HB lines. apply mysql_explain_exact in HB. destruct HB as [_ HF]. fold lines in HF.
  assert (HT : map MysqlExplain.rl_text (flat_map preorder (t_children t)) = lines).
  { assert (E : map (fun p => MysqlExplain.rl_text (snd p)) (forest_depths 0 (t_children t)) = lines).
    { clear - HF. induction HF as [|line [d n] ls ns HP HF IH]; [reflexivity|]. cbn [map snd]. f_equal; auto.
      pose proof (mysql_line_reads line) as HR. clear HR. unfold MysqlExplain.parse_line in HP.
      destruct (MysqlExplain.parse_estimation line) as [[[i c] r]| |]; try discriminate.
      cbn [obind] in HP. destruct (MysqlExplain.parse_actual line) as [[[[f a] rr] lp]| |]; try discriminate.
      cbn [obind] in HP. injection HP as _ <-. reflexivity. }
    rewrite <- E. rewrite <- map_map with (f := snd) (g := MysqlExplain.rl_text). f_equal. unfold forest_depths.
    clear. generalize (t_children t). intros l. induction l as [|c l IH]; [reflexivity|]. cbn [flat_map].
    rewrite map_app, <- IH. f_equal. symmetry. apply tree_depths_preorder. }
  unfold plan_view. destruct (t_children t) as [|c cs] eqn:EC.
  - cbn in HT. rewrite <- HT. split; [reflexivity|congruence].
  - split.
    + intros K. rewrite K in HT. destruct c. discriminate.
    + intros _. rewrite <- EC in *. clear EC.
      destruct (plan_page_total mysql_end srt (Some (map (node_view mysql_vm) (t_children t))) HS) as (p & E & H1 & H2).
      exists p. split; [exact E|].
      rewrite forest_view_preorder, map_map in H1. rewrite forest_view_preorder in H2. split.
      * rewrite H1. exact HT.
      * rewrite <- HT, map_length. rewrite <- (map_length (fun b => snd (b_data b))), H2. now rewrite map_length.
Qed.

Lemma parse_node_lines : forall g sp n, PgExplain.parse_node g = Ok (sp, n) -> PgExplain.rn_lines n = g.
Proof.
  intros g sp n H. unfold PgExplain.parse_node in H.
  repeat match type of H with
         | context [match ?x with _ => _ end] => destruct x; try discriminate; cbn [obind] in H
         | context [obind ?x _] => destruct x; try discriminate; cbn [obind] in H
         end.
  all: injection H as _ <-; reflexivity.
Qed.
Lemma join_groups : forall groups, Forall (fun g => g <> []) groups ->
    join [nl] (map (join [nl]) groups) = join [nl] (concat groups).
Proof.
  induction 1 as [|g gs Hg HF IH]; [reflexivity|]. cbn [map concat].
  destruct gs as [|g2 gs]; [cbn; now rewrite app_nil_r|].
  inversion HF as [|x y H1 H2]; subst.
  change (join [nl] (join [nl] g :: map (join [nl]) (g2 :: gs)))
    with (join [nl] g ++ [nl] ++ join [nl] (map (join [nl]) (g2 :: gs))).
  rewrite IH. clear IH HF. cbn [concat].
  assert (K : g2 ++ concat gs <> []) by (destruct g2; [congruence|discriminate]).
  revert K. generalize (g2 ++ concat gs). intros r K. clear - Hg K.
  induction g as [|x g IH]; [congruence|]. destruct g as [|y g].
  - cbn [app]. destruct r; [congruence|]. reflexivity.
  - change (join [nl] (x :: y :: g)) with (x ++ [nl] ++ join [nl] (y :: g)).
    rewrite <- !app_assoc. rewrite IH by discriminate. reflexivity.
Qed.

(** PostgreSQL, with the summary EXPLAIN ANALYZE prints: nodes and summary together
    are the printed lines. *)
Theorem pg_plan_shown : forall srt body first rest t s, is_sort bar_less srt -> body <> [] ->
    Forall (fun l => ~ summary_line l) body -> summary_line first ->
    PgExplain.build_explain (body ++ first :: rest) = Ok (t, s) ->
    s = join [nl] (first :: rest) /\
    exists p, plan_page pg_end srt (plan_view pg_vm t) = Ok (Some p) /\
      join [nl] (pp_texts p) = join [nl] body /\
      exists groups, cut_into body groups /\ pp_texts p = map (join [nl]) groups /\
                     length (pp_bars p) = length groups.
Proof.
  intros srt body first rest t s HS HN HF HF1 HB.
  destruct (pg_groups_exact body first rest HN HF HF1) as (groups & EG & HC & _).
  apply pg_explain_exact in HB. rewrite EG in HB. cbn [fst snd] in HB. destruct HB as (_ & Es & HG & _).
  split; [exact Es|].
  assert (HT : map (fun v => join [nl] (PgExplain.rn_lines (PgExplain.tn_node v))) (flat_map preorder (t_children t))
               = map (join [nl]) groups).
  { clear - HG. induction HG as [|g v gs vs (sp & E & _) HG IH]; [reflexivity|]. cbn [map]. f_equal; auto.
    f_equal. eapply parse_node_lines; eauto. }
  pose proof HC as HC0. destruct HC as (HC1 & HC2 & _).
  assert (GN : groups <> []) by (intros ->; cbn in HC1; congruence).
  unfold plan_view. destruct (t_children t) as [|c cs] eqn:EC.
  - cbn in HT. destruct groups; [congruence|discriminate].
  - rewrite <- EC in *. clear EC.
    destruct (plan_page_total pg_end srt (Some (map (node_view pg_vm) (t_children t))) HS) as (p & E & H1 & H2).
    rewrite forest_view_preorder, map_map in H1. rewrite forest_view_preorder in H2.
    assert (H3 : pp_texts p = map (join [nl]) groups) by (rewrite H1; exact HT).
    exists p. split; [exact E|]. split.
    + rewrite H3, join_groups by auto. now rewrite HC1.
    + exists groups. split; [exact HC0|]. split; [exact H3|].
      rewrite <- (map_length (fun b => snd (b_data b))), H2, map_length.
      rewrite <- (map_length (join [nl]) groups), <- HT. now rewrite map_length.
Qed.
Example ex_pg_shown :
  let body := [lit "Hash Join  (cost=1.0..2.0 rows=1 width=4) (actual time=0.1..0.2 rows=1 loops=1)";
               lit "  Hash Cond: (a.id = b.id)";
               lit "  ->  Seq Scan on a  (cost=0.0..1.0 rows=1 width=4) (actual time=0.0..0.1 rows=1 loops=1)"] in
  exists t s p, PgExplain.build_explain (body ++ [lit "Planning Time: 0.1 ms"]) = Ok (t, s) /\
    plan_page pg_end sort_bars (plan_view pg_vm t) = Ok (Some p) /\ length (pp_texts p) = 2 /\
    map (fun b => Qred (b_hi b)) (pp_bars p) = [1 # 5; 1 # 10]%Q.
Proof. eexists _, _, _. repeat (split; [vm_compute; reflexivity|]). vm_compute. reflexivity. Qed.

(** Hasura explains without ANALYZE, so there is no summary and the last node is
    lost (C30): the plan of a single node is not shown at all. *)
Theorem hasura_plan_hidden_refuted : exists line t s,
    PgExplain.build_explain [line] = Ok (t, s) /\
    (forall srt, plan_page cost_end srt (plan_view pg_vm t) = Ok None) /\
    line = lit "Seq Scan on users  (cost=0.00..25.88 rows=6 width=68)".
Proof. eexists _, _, _. split; [|split; [|reflexivity]]; [vm_compute; reflexivity|]. intros srt. reflexivity. Qed.

(** ** C79: the numbers of the plan *)

(** Whatever plan MySQL prints, the page's tree has its shape, and every node the
    text, table and numbers printed. *)
Theorem mysql_view_roundtrip : forall f, f <> [] -> Forall mysql_printable (flat_map preorder f) ->
    exists t v, MysqlExplain.build_explain (mysql_text f) = Ok t /\ plan_view mysql_vm t = Some v /\
      Forall2 (mirrors vm_reads_mysql 0) f v.
Proof.
  intros f HN HP. destruct (mysql_explain_roundtrip f HP) as (f' & E & HM).
  exists (Node MysqlExplain.empty_line f'), (map (node_view mysql_vm) f'). split; [exact E|]. split.
  - unfold plan_view. cbn [t_children]. destruct f'; [inversion HM; congruence|reflexivity].
  - clear E HN HP. assert (HT : forall t t' d, mirrors MysqlExplainRoundtrip.reads_back d t t' ->
      mirrors vm_reads_mysql d t (node_view mysql_vm t')).
    { clear. apply (tree_ind' (fun t => forall t' d, mirrors MysqlExplainRoundtrip.reads_back d t t' ->
        mirrors vm_reads_mysql d t (node_view mysql_vm t'))).
      intros n cs HF t' d HM. inversion HM as [d0 a b cs0 ds HR HC]; subst. cbn [node_view]. constructor.
      - destruct HR as (R1 & R2 & R3 & R4). unfold vm_reads_mysql.
        cbn [mysql_vm vn_text vn_table vn_init_cost vn_cost vn_rows vn_width vn_time_first vn_time_avg vn_returned vn_loops].
        auto.
      - clear HM HR. induction HC as [|c c' cs cs' H1 H2 IH]; [constructor|]. inversion HF; subst.
        cbn [map]. constructor; auto. }
    induction HM as [|t t' l l' H1 H2 IH]; [constructor|]. cbn [map]. constructor; auto.
Qed.
Example ex_mysql_view : ex_mysql_plan <> [] /\ Forall mysql_printable (flat_map preorder ex_mysql_plan).
Proof. split; [discriminate|exact ex_mysql_printable]. Qed.

Theorem pg_view_roundtrip : forall t first rest, pg_tree_printable t -> summary_line first ->
    exists t' v, PgExplain.build_explain (pg_text_lines t ++ first :: rest) = Ok (t', join [nl] (first :: rest)) /\
      plan_view pg_vm t' = Some [v] /\ pg_mirrors vm_reads_pg 0 t v.
Proof.
  intros t first rest HP HS. destruct (pg_explain_roundtrip t first rest HP HS) as (t' & E & HM).
  exists (Node PgExplain.root_node [t']), (node_view pg_vm t'). split; [exact E|]. split; [reflexivity|].
  clear E HP HS. revert t' HM. generalize 0. intros ind t'. revert t' ind.
  revert t. apply (tree_ind' (fun t => forall t' ind, pg_mirrors pg_reads_back ind t t' -> pg_mirrors vm_reads_pg ind t (node_view pg_vm t'))).
  intros n cs HF t' ind HM. inversion HM as [i a b cs0 ds HR HC]; subst. cbn [node_view]. constructor.
  - destruct HR as (R1 & R2 & R3 & R4). unfold vm_reads_pg, pg_vm. cbv zeta.
    cbn [vn_text vn_table vn_init_cost vn_cost vn_rows vn_width vn_time_first vn_time_avg vn_returned vn_loops].
    rewrite R1. auto.
  - clear HM HR. induction HC as [|c c' cs cs' H1 H2 IH]; [constructor|]. inversion HF; subst.
    cbn [map]. constructor; auto.
Qed.

(** ** C80: the timeline's lengths *)

(** A node that ran several times takes the number of runs times their average,
    counted from the end of its children; one that ran once ends at its time. *)
Theorem mysql_end_running_time : forall d start t, mysql_running_time d t -> (0 < t)%Q ->
    (forall loops, vn_loops d = Some loops -> (1 < loops)%Z -> (mysql_end d start == start + t)%Q) /\
    (vn_loops d = Some 1%Z -> (mysql_end d start == t)%Q).
Proof.
  intros d start t (avg & loops & Ea & El & Et) Hp. split.
  - intros loops' E' HL. rewrite El in E'. injection E' as <-. unfold mysql_end. rewrite El, Ea. cbn [int_or_zero float_or_zero].
    destruct (Z.ltb_spec 1 loops) as [_|K]; [|lia].
    destruct (Qeq_bool avg 0) eqn:EQ.
    + apply Qeq_bool_iff in EQ. rewrite EQ in Et. rewrite Qmult_0_l in Et. lra.
    + rewrite andb_false_r. rewrite Et. reflexivity.
  - intros E1. rewrite El in E1. injection E1 as ->. unfold mysql_end. rewrite El, Ea. cbn [int_or_zero float_or_zero Z.ltb Z.compare Pos.compare Pos.compare_cont].
    rewrite Et. change (inject_Z 1) with 1%Q. ring.
Qed.
Example ex_running : mysql_running_time (vm0 [] (1 # 2) 4) 2 /\ mysql_end (vm0 [] (1 # 2) 4) 3 == 5.
Proof. split; [exists (1 # 2)%Q, 4%Z; repeat split; reflexivity|reflexivity]. Qed.

(** Page and suggestions reckon with the same time (EstimatedTotalTime of the Go
    code), for every node that ran. *)
Theorem mysql_end_agrees : forall l loops start, MysqlExplain.rl_time_avg l <> None ->
    MysqlExplain.rl_loops l = Some loops ->
    ((1 < loops)%Z -> (mysql_end (mysql_vm l) start == start + MysqlExplain.total_time l)%Q) /\
    (loops = 1%Z -> (mysql_end (mysql_vm l) start == MysqlExplain.total_time l)%Q).
Proof.
  intros l loops start HA HL. unfold mysql_end, MysqlExplain.total_time. cbn [mysql_vm vn_loops vn_time_avg].
  rewrite HL. destruct (MysqlExplain.rl_time_avg l) as [avg|]; [|congruence]. cbn [int_or_zero float_or_zero].
  split.
  - intros H1. destruct (Z.ltb_spec 1 loops) as [_|K]; [|lia]. rewrite (andb_comm (Qeq_bool avg 0)).
    destruct (Z.ltb 1000 loops && Qeq_bool avg 0)%bool; reflexivity.
  - intros ->. cbn [Z.ltb Z.compare Pos.compare Pos.compare_cont]. rewrite andb_false_r. change (inject_Z 1) with 1%Q. ring.
Qed.
Example ex_agree : let l := MysqlExplain.Build_result_line (lit "x") (lit "t") None None None (Some 0%Q) (Some 0%Q) (Some 3%Z) (Some 2000%Z) in
  (mysql_end (mysql_vm l) 1 == 6 # 5)%Q /\ (MysqlExplain.total_time l == 1 # 5)%Q.
Proof. split; reflexivity. Qed.
(** Not so for a node with times but no runs: the suggestions count nothing, the
    page its average. *)
Theorem mysql_end_no_runs_refuted : exists l,
    MysqlExplain.rl_loops l = Some 0%Z /\ (MysqlExplain.total_time l == 0)%Q /\ (mysql_end (mysql_vm l) 0 == 3)%Q.
Proof.
  exists (MysqlExplain.Build_result_line [] [] None None None (Some 0%Q) (Some 3%Q) (Some 0%Z) (Some 0%Z)).
  repeat split; reflexivity.
Qed.

Print Assumptions timeline_numbered.
Print Assumptions timeline_times.
Print Assumptions drawn_nested.
Print Assumptions plan_page_total.
Print Assumptions highlighted_text.
Print Assumptions mysql_plan_shown.
Print Assumptions pg_plan_shown.
Print Assumptions hasura_plan_hidden_refuted.
Print Assumptions mysql_view_roundtrip.
Print Assumptions pg_view_roundtrip.
Print Assumptions mysql_end_running_time.
Print Assumptions mysql_end_agrees.
Print Assumptions mysql_end_no_runs_refuted.
