(** C121: what the bars of the plan timeline are labelled with. *)
From Coq Require Import String List NArith ZArith QArith Bool Lia Arith.
From Verif Require Import Base Dec ExplainTree ExplainSpec ExplainTreeProofs ExplainLineSpec PgExplainSpec PgPrintSpec IndexBuild PlanView PlanViewSpec
  PlanViewProperties ExplainProperties PlanChart TitleSpec TitleProofs.
From Verif Require MysqlExplain MysqlExplainRoundtrip PgExplain.
Import ListNotations.
Local Open Scope string_scope.
Local Open Scope list_scope.
Local Open Scope nat_scope.

(** The i-th bar is about the i-th node of the plan, in pre-order: its label is that node's
    title, its tooltip that node's, and entering it puts that node's text in bold.  There is
    no other bar, and every bar has its 30 pixels. *)
Theorem chart_points : forall end_time srt l p, is_sort bar_less srt -> plan_page end_time srt (Some l) = Ok (Some p) ->
    chart_height (pp_bars p) = 30 * length (flat_map preorder l) + 130 /\
    forall i, match nth_error (flat_map preorder l) i with
      | Some n => data_label (pp_bars p) i = Ok (vn_title n) /\
          (forall create, hover_bar create (pp_bars p) i = Ok (create n)) /\
          exists k, mouse_enter (pp_bars p) i = Ok k /\ nth_error (pp_texts p) k = Some (vn_text n)
      | None => data_label (pp_bars p) i = Panic /\ (forall create, hover_bar create (pp_bars p) i = Panic) /\
          mouse_enter (pp_bars p) i = Panic
      end.
Proof.
  intros end_time srt l p HS E. destruct (plan_page_total end_time srt (Some l) HS) as (p' & E' & _ & H2). rewrite E in E'. injection E' as <-.
  destruct (highlighted_text end_time srt (Some l) p HS E) as (_ & HT & HU). split.
  - unfold chart_height. rewrite nodup_fixed_point, map_length, <- H2, map_length; [lia|].
    assert (HN : map b_num (pp_bars p) = seq 0 (length (pp_bars p))).
    { unfold plan_page in E. cbv zeta in E. destruct (shown_texts _ _); [|discriminate].
      destruct (timeline_numbered _ (fun d => end_time (snd d)) srt (forest_objects 0 l) HS) as (bars & EB & K1 & K2 & _).
      rewrite EB in E. cbn [obind] in E. injection E as <-. cbn [pp_bars]. rewrite K2. f_equal. rewrite <- K1. now rewrite map_length. }
    rewrite HN. apply seq_NoDup.
  - intros i. rewrite <- H2. unfold data_label, hover_bar, mouse_enter, point. destruct (nth_error (pp_bars p) i) as [b|] eqn:EB.
    + rewrite (map_nth_error _ _ _ EB). cbn [obind]. split; [reflexivity|]. split; [reflexivity|]. exists (b_num b). split; [reflexivity|].
      apply HT. now apply nth_error_In in EB.
    + replace (nth_error (map (fun b => snd (b_data b)) (pp_bars p)) i) with (@None vm_node); [split; [reflexivity|split; reflexivity]|].
      symmetry. apply nth_error_None. rewrite map_length. now apply nth_error_None.
Qed.
Example ex_chart : exists p, plan_page mysql_end sort_bars (Some PlanViewProperties.ex_plan) = Ok (Some p) /\
    data_label (pp_bars p) 2 = Ok (lit "t") /\ hover_bar vn_text (pp_bars p) 2 = Ok (lit "    -> Lookup") /\ mouse_enter (pp_bars p) 2 = Ok 2 /\
    data_label (pp_bars p) 4 = Panic /\ chart_height (pp_bars p) = 250.
Proof. eexists. split; [vm_compute; reflexivity|]. split; [vm_compute; reflexivity|]. split; [vm_compute; reflexivity|]. split; [vm_compute; reflexivity|].
  split; vm_compute; reflexivity. Qed.

(** The labels of a chart, in the order of its bars *)
Definition labelled (bars : list (bar (nat * vm_node))) (labels : list gostring) : Prop :=
  forall i, data_label bars i = match nth_error labels i with Some t => Ok t | None => Panic end.
Lemma page_labelled : forall end_time srt l, is_sort bar_less srt -> exists p, plan_page end_time srt (Some l) = Ok (Some p) /\
    labelled (pp_bars p) (map vn_title (flat_map preorder l)).
Proof.
  intros end_time srt l HS. destruct (plan_page_total end_time srt (Some l) HS) as (p & E & _). exists p. split; [exact E|].
  intros i. pose proof (proj2 (chart_points end_time srt l p HS E) i) as H. destruct (nth_error (flat_map preorder l) i) as [n|] eqn:EN.
  - rewrite (map_nth_error _ _ _ EN). apply H.
  - replace (nth_error (map vn_title (flat_map preorder l)) i) with (@None gostring); [apply H|]. symmetry. apply nth_error_None. rewrite map_length.
    now apply nth_error_None.
Qed.
Lemma node_view_preorder : forall {A} (f : A -> vm_node) t, preorder (node_view f t) = map f (preorder t).
Proof.
  intros A f. apply (tree_ind' (fun t => preorder (node_view f t) = map f (preorder t))). intros a cs IH. cbn [node_view preorder map]. f_equal.
  induction IH as [|t ts Ht IH IH']; [reflexivity|]. cbn [map flat_map]. now rewrite Ht, IH', map_app.
Qed.
Lemma forest_view_preorder : forall {A} (f : A -> vm_node) l, flat_map preorder (map (node_view f) l) = map f (flat_map preorder l).
Proof. intros A f. induction l as [|t l IH]; [reflexivity|]. cbn [map flat_map]. now rewrite node_view_preorder, IH, map_app. Qed.
Lemma forall2_titles : forall {A B} (P : A -> Prop) (R : A -> B -> Prop) (Q : A -> gostring -> Prop) (g : B -> gostring) la lb,
    Forall P la -> Forall2 R la lb -> (forall a b, P a -> R a b -> Q a (g b)) -> Forall2 Q la (map g lb).
Proof. intros A B P R Q g la lb HP H HQ. induction H as [|a b la lb H1 H2 IH]; [constructor|]. inversion HP; subst. cbn [map]. constructor; auto. Qed.

(** Whatever plan MySQL prints, its bars are labelled, in order, with the titles of its nodes. *)
Theorem mysql_bar_labels : forall f srt, is_sort bar_less srt -> f <> [] -> Forall (fun n => mysql_printable n /\ mysql_titled n) (flat_map preorder f) ->
    exists t p labels, MysqlExplain.build_explain (mysql_text f) = Ok t /\ plan_page mysql_end srt (plan_view mysql_vm t) = Ok (Some p) /\
      labelled (pp_bars p) labels /\ Forall2 (fun n => mysql_title (mn_desc n)) (flat_map preorder f) labels.
Proof.
  intros f srt HS HN HP. assert (HP1 : Forall mysql_printable (flat_map preorder f)) by (eapply Forall_impl; [|exact HP]; now intros n []).
  destruct (mysql_explain_roundtrip f HP1) as (f' & E & HM).
  assert (HV : plan_view mysql_vm (Node MysqlExplain.empty_line f') = Some (map (node_view mysql_vm) f')).
  { unfold plan_view. cbn [t_children]. destruct f'; [inversion HM; congruence|reflexivity]. }
  destruct (page_labelled mysql_end srt (map (node_view mysql_vm) f') HS) as (p & EP & HL).
  exists (Node MysqlExplain.empty_line f'), p, (map vn_title (flat_map preorder (map (node_view mysql_vm) f'))).
  split; [exact E|]. split; [now rewrite HV|]. split; [exact HL|]. rewrite forest_view_preorder, map_map.
  assert (HF : Forall2 (fun a b => exists d, MysqlExplainRoundtrip.reads_back d a b) (flat_map preorder f) (flat_map preorder f')).
  { clear - HM. induction HM as [|t t' f f' H1 H2 IH]; [constructor|]. cbn [flat_map]. apply Forall2_app; [now apply mirrors_preorder in H1|exact IH]. }
  apply (forall2_titles _ _ _ _ _ _ HP HF). intros n l [P1 P2] (d & R & _). now apply (mysql_line_title d).
Qed.
Example ex_mysql_titled : ex_mysql_plan <> [] /\ Forall (fun n => mysql_printable n /\ mysql_titled n) (flat_map preorder ex_mysql_plan).
Proof.
  split; [discriminate|]. apply Forall_forall. intros n H. split; [now apply (proj1 (Forall_forall _ _) ex_mysql_printable)|].
  cbn in H. unfold mysql_titled. destruct H as [<-|[<-|[<-|[<-|[]]]]]; cbn; intros B; repeat (destruct B as [B|B]; [discriminate B|]); destruct B.
Qed.
Definition my_line (s : string) : MysqlExplain.result_line :=
  match MysqlExplain.parse_line (lit s) with Ok (_, l) => l | _ => MysqlExplain.empty_line end.
Example ex_mysql_titles :
  MysqlExplain.title (my_line "-> Nested loop inner join  (cost=0.25..20.25) (actual time=0.07..1.5 rows=3 loops=2)") = lit "Nested loop inner join" /\
  MysqlExplain.title (my_line "    -> Index lookup on t using u (a=1)  (cost=20.25 rows=2) (never executed)") = lit "Index lookup" /\
  MysqlExplain.title (my_line "-> Filter: (a.b = 1)  (actual time=0.07..1.5 rows=3 loops=2)") = lit "Filter" /\
  MysqlExplain.title (my_line "-> Materialize  (actual time=0.07..1.5 rows=3 loops=2)") = lit "Materialize".
Proof. split; [vm_compute; reflexivity|]. split; [vm_compute; reflexivity|]. split; vm_compute; reflexivity. Qed.
(** A title says one thing only. *)
Theorem mysql_title_unique : forall desc t t', mysql_title desc t -> mysql_title desc t' -> t = t'.
Proof.
  assert (UO : forall sep s a, up_to sep s a -> occurs sep s) by (intros sep s a ((b & ->) & _); now exists a, b).
  intros desc t t' H H'. unfold mysql_title in *. cbv zeta in *. set (s := desc ++ lit " ") in *.
  destruct H as [(a & U & ST)|(N & H)]; destruct H' as [(a' & U' & ST')|(N' & H')].
  - rewrite (up_to_fun _ _ _ _ U U') in ST. now apply (stripped_unique a').
  - elim N'. now apply (UO _ _ a).
  - elim N. now apply (UO _ _ a').
  - destruct H as [(a & u & U & ST & ->)|(M & H)]; destruct H' as [(a' & u' & U' & ST' & ->)|(M' & H')].
    + rewrite (up_to_fun _ _ _ _ U U') in ST. now rewrite (stripped_unique _ _ _ ST ST').
    + elim M'. now apply (UO _ _ a).
    + elim M. now apply (UO _ _ a').
    + destruct H as [(a & U & ST)|(K & H)]; destruct H' as [(a' & U' & ST')|(K' & H')].
      * rewrite (up_to_fun _ _ _ _ U U') in ST. now apply (stripped_unique a').
      * elim K'. now apply (UO _ _ a).
      * elim K. now apply (UO _ _ a').
      * now apply (up_to_fun _ _ _ _ H H').
Qed.
Theorem pg_title_unique : forall desc t t', pg_title desc t -> pg_title desc t' -> t = t'.
Proof.
  intros desc t t' (N & (r & E & P) & M) (N' & (r' & E' & P') & M'). assert (L : length t = length t').
  { apply Nat.le_antisymm; [now apply (M t' r')|now apply (M' t r)]. }
  rewrite E in E'. now apply app_len_inj in E'.
Qed.

(** The same for PostgreSQL *)
Theorem pg_bar_labels : forall t first rest srt, is_sort bar_less srt -> pg_tree_printable t -> Forall pg_titled (preorder t) -> summary_line first ->
    exists t' p labels, PgExplain.build_explain (pg_text_lines t ++ first :: rest) = Ok (t', join [nl] (first :: rest)) /\
      plan_page pg_end srt (plan_view pg_vm t') = Ok (Some p) /\
      labelled (pp_bars p) labels /\ Forall2 (fun n => pg_title (pn_desc n)) (preorder t) labels.
Proof.
  intros t first rest srt HS HP HT HF. destruct (pg_explain_roundtrip t first rest HP HF) as (t' & E & HM).
  destruct (page_labelled pg_end srt [node_view pg_vm t'] HS) as (p & EP & HL).
  exists (Node PgExplain.root_node [t']), p, (map vn_title (flat_map preorder [node_view pg_vm t'])).
  split; [exact E|]. split; [exact EP|]. split; [exact HL|]. cbn [flat_map]. rewrite app_nil_r, node_view_preorder, map_map.
  apply pg_mirrors_preorder in HM. destruct HP as [HP _].
  assert (HB : Forall (fun n => pg_printable n /\ pg_titled n) (preorder t)).
  { apply Forall_forall. intros n H. split; [now apply (proj1 (Forall_forall _ _) HP)|now apply (proj1 (Forall_forall _ _) HT)]. }
  apply (forall2_titles _ _ _ _ _ _ HB HM). intros n v [P1 P2] (d & R & _). now apply (pg_node_title d).
Qed.
Example ex_pg_titled : pg_tree_printable ex_pg_plan /\ Forall pg_titled (preorder ex_pg_plan) /\ summary_line ex_summary.
Proof.
  split; [exact ex_pg_printable|]. split; [|exact ex_summary_line].
  assert (T : forall d, match d with [] => False | c :: _ => ~ blank c /\ c <> 45%N end -> existsb (N.eqb nl) d = false ->
     match d with [] => False | c :: _ => ~ blank c end /\ ~ In nl d /\ ~ exists b, d = lit "->" ++ b).
  { intros [|c d]; [tauto|]. intros [H1 H2] H3. split; [exact H1|]. split; [now apply lacks_lit|]. intros (b & E). injection E as -> _. now apply H2. }
  apply Forall_forall. intros n H. unfold pg_titled. cbn in H. apply T.
  all: destruct H as [<-|[<-|[<-|[<-|[]]]]]; try reflexivity; cbn; (split; [|discriminate]); intros B; repeat (destruct B as [B|B]; [discriminate B|]); destruct B.
Qed.
Definition pg_labels (lines : list gostring) : list gostring :=
  match PgExplain.build_explain lines with Ok (t, _) => map PgExplain.title (map PgExplain.tn_node (flat_map preorder (t_children t))) | _ => [] end.
Example ex_pg_titles : pg_labels (pg_text_lines ex_pg_plan ++ [ex_summary]) = [lit "Hash Join"; lit "Seq Scan"; lit "Seq Scan"; lit "Seq Scan"].
Proof. vm_compute. reflexivity. Qed.

(** A value compared with may become the label: only a colon is looked for. *)
Theorem mysql_title_value_refuted : exists n, mysql_printable n /\ mysql_titled n /\
    mn_desc n = lit "Index lookup on t using i (a='x: y')" /\ forall t, mysql_title (mn_desc n) t -> t = lit "Index lookup on t using i (a='x".
Proof.
  exists {| mn_desc := lit "Index lookup on t using i (a='x: y')"; mn_estimate := None; mn_actual := None |}. split; [|split; [|split; [reflexivity|]]].
  - split; [intros H; cbn in H; repeat (destruct H as [H|H]; [discriminate H|]); destruct H|]. split; [now apply hasb_not|]. split; [now apply hasb_not|].
    split; exact I.
  - cbn. intros B. repeat (destruct B as [B|B]; [discriminate B|]). destruct B.
  - intros t H. apply (mysql_title_unique _ _ _ H). clear.
    pose proof (mysql_title_of_text (lit "Index lookup on t using i (a='x: y')") [] (fun x H => match H with end)) as T. exact T.
Qed.

Print Assumptions chart_points.
Print Assumptions mysql_bar_labels.
Print Assumptions pg_bar_labels.
Print Assumptions mysql_title_unique.
Print Assumptions pg_title_unique.
Print Assumptions mysql_title_value_refuted.
