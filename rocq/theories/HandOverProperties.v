(** The report as the browser opens it. *)
From Coq Require Import String List NArith ZArith QArith Bool Lia Arith Permutation.
From Verif Require Import Base Json JsonSpec JsonProperties ExplainTree ExplainTreeProofs IndexText IndexBuild Examiner ExaminerProperties SuggestCmd
  CommandText PlanView Otel Pi LoadCharts LoadChartsProofs LoadChartsProperties TraceDiagram HandOver HandOverSpec HandOverProofs.
From Verif Require MysqlExplain.
Import ListNotations.
Local Open Scope nat_scope.

(** ** C86 *)
(** The browser reads from the report's text the data of the command and opens the page
    of the command with exactly this data. *)
Theorem report_opens_its_page (num_text : Q -> gostring) (num_value : gostring -> option Q)
    (format : gostring -> outcome gostring) (b : build_option) :
  numbers (number_fine num_text num_value) (gr_map b) -> fit format b ->
  exists v p, script_value num_value (report_script num_text (gr_map b)) = Some v /\
    open_page format (bundle_of b) v = Ok p /\ page_shows format b p.
Proof.
  intros Hn Hf. destruct (opens format b Hf) as (q & Eo & Eq).
  exists (gr_map b), (page_opened format b q). split; [apply report_text_read_back, Hn|]. split; [exact Eo|].
  apply page_shows_ok; assumption.
Qed.
(** Plans of MySQL meet the condition of [fit]. *)
Theorem mysql_plan_fits (t : tree MysqlExplain.result_line) :
  when_some (Forall (tree_all (fun n => vn_width n = None))) (plan_view mysql_vm t).
Proof.
  unfold plan_view. destruct (t_children t) as [|c cs]; [exact I|]. cbn [when_some].
  apply Forall_map, Forall_forall. intros x _. induction x as [a l IH] using tree_ind'.
  cbn [node_view tree_all]. split; [reflexivity|]. induction IH; [exact I|]. cbn [map]. split; assumption.
Qed.

Definition ex_it (t c : string) : index_target := mk_it (lit t) [lit c].
Definition ex_er : examination_result :=
  {| er_results := [ {| ir_target := ex_it "tasks" "user_id"; ir_millis := 120 |};
                     {| ir_target := ex_it "users" "name"; ir_millis := 30 |} ];
     er_original := 100 |}.
Definition ex_node (text : string) : vm_node :=
  {| vn_text := lit text; vn_title := lit text; vn_table := lit "tasks"; vn_init_cost := Some 0%Q; vn_cost := Some 12%Q; vn_rows := Some 3%Z;
     vn_width := None; vn_time_first := None; vn_time_avg := Some 7%Q; vn_returned := None; vn_loops := Some 1%Z |}.
Definition ex_plan : option (list (tree vm_node)) := Some [Node (ex_node "Filter") [Node (ex_node "Table scan") []]].
Definition ex_vars : option (list (gostring * jv)) := Some [(lit "email", JStr (lit "a@b"))].
Definition ex_format (s : gostring) : outcome gostring := Ok (s ++ [10%N]).
Definition ex_html (k : sub_command) (its : list index_target) (er : option examination_result) : build_option :=
  suggest_html k true (lit "out.html") (lit "SELECT 1") (lit "{}") ex_vars (lit "select 1") ex_plan (lit "Time: 1 ms") its er.
Example report_opens_its_page_ex : forall k,
  numbers (number_fine ex_text ex_value) (gr_map (ex_html k [ex_it "tasks" "user_id"] (Some ex_er))) /\
  fit ex_format (ex_html k [ex_it "tasks" "user_id"] (Some ex_er)).
Proof.
  assert (Hn : forall z, (0 <= z)%Z -> number_fine ex_text ex_value (inject_Z z)).
  { intros z Hz. unfold number_fine, ex_text, ex_value. cbn [inject_Z Qnum].
    split; [apply Dec.dec_of_N_nonempty|]. split.
    - apply Forall_forall. intros x Hx. pose proof (Dec.dec_of_N_digits (Z.to_N z)) as HD.
      rewrite forallb_forall in HD. specialize (HD x Hx). unfold num_char, is_digit in *. rewrite HD. reflexivity.
    - rewrite Dec.dec_of_N_val. rewrite Z2N.id by exact Hz. reflexivity. }
  assert (H0 := Hn 0%Z ltac:(lia)). assert (H3 := Hn 3%Z ltac:(lia)). assert (H12 := Hn 12%Z ltac:(lia)).
  assert (H7 := Hn 7%Z ltac:(lia)). assert (H1 := Hn 1%Z ltac:(lia)). assert (H120 := Hn 120%Z ltac:(lia)).
  assert (H30 := Hn 30%Z ltac:(lia)). assert (H100 := Hn 100%Z ltac:(lia)). clear Hn.
  intros k. split.
  - destruct k; cbn; tauto.
  - assert (Hs : forall d, sd_targets d = Some [ex_it "tasks" "user_id"] -> sd_result d = Some ex_er -> suggest_fit d).
    { intros d Et Er. unfold suggest_fit. rewrite Et, Er. cbn [when_some]. split; [|split; [discriminate|]].
      - apply Forall_cons; [discriminate|apply Forall_nil].
      - apply Forall_cons; [discriminate|]. apply Forall_cons; [discriminate|apply Forall_nil]. }
    destruct k; cbn [ex_html suggest_html fit]; try (apply Hs; reflexivity).
    + split; [apply Hs; reflexivity|]. cbn. apply Forall_cons; [|apply Forall_nil]. cbn. tauto.
    + split; [apply Hs; reflexivity|]. split; [eexists; reflexivity|]. cbn. split; [discriminate|tauto].
Qed.
Print Assumptions report_opens_its_page.
Print Assumptions mysql_plan_fits.

(** ** C87 *)
(** The cards of the three suggest commands, from top to bottom: GraphQL, SQL, plan,
    timeline, the suggestion with the offered command for the checked targets, and the
    examination. *)
Theorem suggest_report_cards (format : gostring -> outcome gostring) (srt : list page_index_result -> list page_index_result)
    (checked : list bool) (k : sub_command) (runs : bool) (output query variables : gostring)
    (parsed : option (list (gostring * jv))) (sql q : gostring) (nodes : option (list (tree vm_node))) (summary : gostring)
    (its : list index_target) (er : option examination_result) :
  is_sort faster srt -> Forall has_columns its -> when_some examined er ->
  match k with
  | SubMysql => when_some (Forall (tree_all (fun n => vn_width n = None))) nodes /\ q = query
  | SubPostgres => q = query
  | SubHasura => format sql = Ok q /\ when_some (fun l => ordinary (JObj l)) parsed
  end ->
  exists exam,
    browse format srt checked (suggest_html k runs output query variables parsed sql nodes summary its er) =
    Ok (gql_cards k query parsed ++ sql_cards k q ++ plan_cards k nodes summary ++
        suggestion_cards k its er
          (build_command_text k (still_checked checked its) (report_options k runs output query variables)) ++ exam) /\
    is_exam_card k er exam.
Proof.
  intros Hs Ht He Hk. unfold browse.
  assert (Hf : fit format (suggest_html k runs output query variables parsed sql nodes summary its er)).
  { destruct k; cbn [suggest_html fit].
    - split; [|exact (proj1 Hk)]. split; cbn; assumption.
    - split; cbn; [|exact He]. destruct its; [exact I|exact Ht].
    - split; [split; cbn; assumption|]. split; [exists q; exact (proj1 Hk)|exact (proj2 Hk)]. }
  destruct (opens format _ Hf) as (q' & Eo & Eq). rewrite Eo. cbn [obind].
  destruct k; cbn [suggest_html page_opened shown].
  - destruct Hk as [_ Hq]. subst q.
    match goal with |- context [page_of ?a ?b ?c ?d] =>
      destruct (cards_page_of srt checked SubMysql a b c d Hs (proj1 Hf)) as (exam & E & HX) end.
    exists exam. rewrite E. split; [|exact HX]. cbn [sd_nodes sd_targets sd_options sd_result sd_query].
    destruct its; reflexivity.
  - subst q.
    match goal with |- context [page_of ?a ?b ?c ?d] =>
      destruct (cards_page_of srt checked SubPostgres a b c d Hs Hf) as (exam & E & HX) end.
    exists exam. rewrite E. split; [|exact HX]. cbn [sd_nodes sd_targets sd_options sd_result sd_query sd_summary].
    destruct its; reflexivity.
  - destruct Hk as [Hq _]. cbn [suggest_html sd_query] in Eq. rewrite Hq in Eq. injection Eq as Eq. subst q'.
    match goal with |- context [page_of ?a ?b ?c ?d] =>
      destruct (cards_page_of srt checked SubHasura a b c d Hs (proj1 Hf)) as (exam & E & HX) end.
    exists exam. rewrite E. split; [|exact HX]. cbn [sd_nodes sd_targets sd_options sd_result sd_query sd_summary sd_gql fst snd].
    destruct its; destruct query; destruct parsed; reflexivity.
Qed.
Lemma faster_sort : is_sort faster (sort_by faster).
Proof.
  apply sort_by_is_sort; unfold faster; intros *; rewrite ?Z.ltb_lt, ?Z.ltb_ge; lia.
Qed.
Example suggest_report_cards_ex :
  is_sort faster (sort_by faster) /\
  browse ex_format (sort_by faster) [true] (ex_html SubHasura [ex_it "tasks" "user_id"] (Some ex_er)) =
  Ok [CardGql (lit "SELECT 1") (JObj [(lit "email", JStr (lit "a@b"))]);
      CardSql (lit "select 1" ++ [10%N]) false;
      CardPlan [Node (ex_node "Filter") [Node (ex_node "Table scan") []]] (lit "Time: 1 ms");
      CardTimeline [Node (ex_node "Filter") [Node (ex_node "Table scan") []]];
      CardSuggestion false [lit "Table=tasks / Column=user_id"]
        (lit "gr db suggest hasura postgres --with-examine \" ++ [10%N; 9%N] ++ lit "-i ""tasks:user_id"" \" ++ [10%N; 9%N] ++
         lit "-o ""out.html"" \" ++ [10%N; 9%N] ++ lit "-q ""SELECT 1"" \" ++ [10%N; 9%N] ++ lit "--json-variables ""{}""");
      CardExamination 100
        [{| xr_millis := 30; xr_percent := Some (7000 # 100)%Q; xr_index := lit "Table=users / Column=name";
            xr_sql := lit "CREATE INDEX ON users (name);" |};
         {| xr_millis := 120; xr_percent := Some (-2000 # 100)%Q; xr_index := lit "Table=tasks / Column=user_id";
            xr_sql := lit "CREATE INDEX ON tasks (user_id);" |}]].
Proof. split; [exact faster_sort|]. vm_compute. reflexivity. Qed.
Print Assumptions suggest_report_cards.

(** With no suggestion MySQL and Hasura still show a card with an empty list and a
    command that examines nothing; PostgreSQL shows none. *)
Theorem no_suggestion_no_card_refuted :
  ~ (forall k runs output query variables parsed sql nodes summary,
       Forall (fun c => match c with CardSuggestion _ _ _ => False | _ => True end)
         (match browse ex_format (sort_by faster) [] (suggest_html k runs output query variables parsed sql nodes summary [] None) with
          | Ok l => l | _ => [] end)).
Proof.
  intros H. specialize (H SubMysql false (lit "o") (lit "q") [] None [] None []). vm_compute in H.
  inversion H as [|a l H1 H2 E]. inversion H2 as [|a' l' H3 H4 E']. exact H3.
Qed.
Example no_suggestion_postgres :
  browse ex_format (sort_by faster) [] (suggest_html SubPostgres false (lit "o") (lit "q") [] None [] None [] [] None) = Ok [CardSql (lit "q") true].
Proof. vm_compute. reflexivity. Qed.
Print Assumptions no_suggestion_no_card_refuted.
(** A variable __proto__ is not among those shown. *)
Theorem variables_shown_refuted :
  ~ (forall l cs, browse ex_format (sort_by faster) []
        (suggest_html SubHasura false (lit "o") (lit "q") (lit "{}") (Some l) (lit "s") None [] [] None) = Ok cs ->
      exists rest, cs = CardGql (lit "q") (JObj l) :: rest).
Proof.
  intros H. specialize (H [(lit "__proto__", JNum 1)] _ eq_refl). vm_compute in H.
  destruct H as (rest & E). discriminate E.
Qed.
Print Assumptions variables_shown_refuted.

(** ** C88 *)
(** The page of an examination opens exactly if something was examined: without targets
    on the command line and without a suggestion the results are null in the report. *)
Theorem examination_page_opens {W : Type} (env : cmd_env W) (unix : N) (rnds : nat -> N) (w : W) (var_targets its : list index_target)
    (tr : list event) (w' : W) (er : examination_result)
    (format : gostring -> outcome gostring) (srt : list page_index_result -> list page_index_result)
    (checked : list bool) (k : sub_command) (output query variables : gostring)
    (parsed : option (list (gostring * jv))) (sql q : gostring) (nodes : option (list (tree vm_node))) (summary : gostring) :
  cmd_examine env unix rnds w var_targets its = (tr, w', Ok er) ->
  is_sort faster srt -> Forall has_columns its -> Forall has_columns var_targets ->
  match k with
  | SubMysql => when_some (Forall (tree_all (fun n => vn_width n = None))) nodes
  | SubPostgres => True
  | SubHasura => format sql = Ok q /\ when_some (fun l => ordinary (JObj l)) parsed
  end ->
  (exists l, browse format srt checked (suggest_html k true output query variables parsed sql nodes summary its (Some er)) = Ok l) <->
  (var_targets <> [] \/ exists it, In it its /\ is_safe it = true).
Proof.
  intros Hx Hs Ht Hv Hk. unfold cmd_examine in Hx.
  set (ts := match var_targets with [] => filter is_safe its | _ => var_targets end) in Hx.
  destruct (examination_results_faithful _ _ _ _ _ _ _ _ _ Hx) as [Hm _].
  assert (HT : Forall has_columns ts).
  { unfold ts. destruct var_targets; [|exact Hv]. apply Forall_forall. intros x Hin. apply filter_In in Hin.
    rewrite Forall_forall in Ht. apply Ht, Hin. }
  assert (Hne : (var_targets <> [] \/ exists it, In it its /\ is_safe it = true) <-> ts <> []).
  { unfold ts. destruct var_targets as [|v vs]; [|split; [discriminate|left; discriminate]]. split.
    - intros [H|(it & Hi & Hsf)]; [contradiction|]. intros E. pose proof (proj2 (filter_In is_safe it its) (conj Hi Hsf)) as Hf.
      rewrite E in Hf. exact Hf.
    - intros H. right. destruct (filter is_safe its) as [|x l] eqn:E; [contradiction|]. exists x.
      apply filter_In. rewrite E. left. reflexivity. }
  rewrite Hne. clear Hne. split.
  - intros (l & El) E. rewrite E in Hm. apply map_eq_nil in Hm.
    assert (Ep : browse format srt checked (suggest_html k true output query variables parsed sql nodes summary its (Some er)) = Panic);
      [|rewrite Ep in El; discriminate El].
    destruct k; cbn [suggest_html].
    + match goal with |- browse _ _ _ (BoMysql ?d) = _ => exact (browse_empty format srt checked (BoMysql d) d er I (conj eq_refl Hk) eq_refl Hm Ht) end.
    + match goal with |- browse _ _ _ (BoPostgres ?d) = _ => apply (browse_empty format srt checked (BoPostgres d) d er I eq_refl eq_refl Hm) end.
      cbn. destruct its; [exact I|exact Ht].
    + match goal with |- browse _ _ _ (BoHasura ?d) = _ => exact (browse_empty format srt checked (BoHasura d) d er (proj2 Hk) eq_refl eq_refl Hm Ht) end.
  - intros Hne.
    assert (Hex : examined er).
    { split; [intros E; rewrite E in Hm; cbn in Hm; congruence|].
      rewrite <- Hm in HT. exact (proj1 (Forall_map ir_target has_columns (er_results er)) HT). }
    assert (Hk' : exists q, match k with
        | SubMysql => when_some (Forall (tree_all (fun n => vn_width n = None))) nodes /\ q = query
        | SubPostgres => q = query
        | SubHasura => format sql = Ok q /\ when_some (fun l => ordinary (JObj l)) parsed
        end).
    { destruct k; [exists query; split; [exact Hk|reflexivity]|exists query; reflexivity|exists q; exact Hk]. }
    destruct Hk' as [q' Hk'].
    destruct (suggest_report_cards format srt checked k true output query variables parsed sql q' nodes summary its (Some er) Hs Ht Hex Hk')
      as (exam & E & _).
    eexists. exact E.
Qed.
Definition ex_env (its : list index_target) : cmd_env unit :=
  {| env_db := {| db_execute := fun _ => (tt, inl 5%Z); db_create := fun _ _ _ => (tt, None); db_drop := fun _ _ _ => (tt, None) |};
     env_explain := fun _ => (tt, None);
     env_suggest := fun _ => (tt, inl its);
     env_html := fun _ _ _ => None |}.
Example examination_page_opens_ex :
  (exists tr, cmd_examine (ex_env []) 1660000000 (fun _ => 7%N) tt [] [] = (tr, tt, Ok {| er_results := []; er_original := 5 |})) /\
  browse ex_format (sort_by faster) [] (ex_html SubPostgres [] (Some {| er_results := []; er_original := 5 |})) = Panic /\
  browse ex_format (sort_by faster) [] (ex_html SubMysql [] (Some {| er_results := []; er_original := 5 |})) = Panic /\
  exists tr er, cmd_examine (ex_env []) 1660000000 (fun _ => 7%N) tt [ex_it "tasks" "user_id"] [] = (tr, tt, Ok er) /\
    exists l, browse ex_format (sort_by faster) [] (ex_html SubPostgres [] (Some er)) = Ok l.
Proof.
  split; [eexists; vm_compute; reflexivity|]. split; [vm_compute; reflexivity|]. split; [vm_compute; reflexivity|].
  eexists. eexists. split; [vm_compute; reflexivity|]. eexists. vm_compute. reflexivity.
Qed.
Print Assumptions examination_page_opens.

(** ** C89 *)
(** The tables of traces: a row for every trace of the report, the longest first. *)
Theorem traces_table_longest_first (srt : list trace_tree -> list trace_tree) (l : list vm_trace) :
  is_sort longer srt ->
  (exists l', Permutation l l' /\ Forall2 trace_row l' (traces_table srt l)) /\
  forall i j a b, i < j -> nth_error (traces_table srt l) i = Some a -> nth_error (traces_table srt l) j = Some b ->
    (tt_duration b <= tt_duration a)%Z.
Proof.
  intros Hs. destruct (Hs (map to_trace_tree l)) as [Hp Hso]. split.
  - destruct (Permutation_map_inv _ _ Hp) as (l' & E & Hp'). exists l'. split; [exact Hp'|].
    unfold traces_table. rewrite E. clear. induction l' as [|v l' IH]; cbn [map]; constructor; [|exact IH].
    unfold trace_row. cbn. split; [reflexivity|]. split; [reflexivity|]. split; [reflexivity|]. lia.
  - intros i j a b Hij Ha Hb. unfold traces_table in *.
    pose proof (sorted_nth _ _ _ Hso i j a b Hij Ha Hb) as H. unfold longer in H. apply Z.ltb_ge in H. lia.
Qed.
Definition ex_vt (id : string) (s e : Z) : vm_trace :=
  {| vt_id := lit id; vt_count := 3; vt_service := lit "frontend";
     vt_root := Node {| v_name := lit "GET"; v_id := lit "1"; v_start := s; v_end := e; v_service := lit "frontend" |} [] |}.
Example traces_table_longest_first_ex :
  is_sort longer (sort_by longer) /\
  map (fun t => (tt_id t, tt_duration t)) (traces_table (sort_by longer) [ex_vt "a" 1000 1100; ex_vt "b" 1000 5000; ex_vt "c" 0 200]) =
  [(lit "b", 4000%Z); (lit "c", 200%Z); (lit "a", 100%Z)].
Proof.
  split; [|vm_compute; reflexivity].
  apply sort_by_is_sort; unfold longer; intros *; rewrite ?Z.ltb_lt, ?Z.ltb_ge; lia.
Qed.
Print Assumptions traces_table_longest_first.

(** ** C90 *)
(** The link of a row is the page of the trace below the UI's URL, if that URL has no
    path. *)
Lemma after_prefix_app p s : after_prefix p (p ++ s) = Some s.
Proof. induction p as [|c p IH]; [reflexivity|]. cbn. rewrite N.eqb_refl. exact IH. Qed.
Lemma url_authority_host h r : Forall (fun c => ~ In c (lit "/?#\")) h -> url_authority (h ++ lit "/" ++ r) = h /\ url_authority h = h.
Proof.
  intros H. induction H as [|c h Hc H IH]; [split; reflexivity|]. cbn [url_authority app].
  assert (E : (N.eqb c 47 || N.eqb c 92 || N.eqb c 63 || N.eqb c 35)%bool = false).
  { apply not_true_is_false. intros T. apply Hc. cbn. rewrite !orb_true_iff, !N.eqb_eq in T. intuition (subst; auto). }
  rewrite E. destruct IH as [I1 I2]. rewrite I1, I2. split; reflexivity.
Qed.
Theorem trace_link_below_ui (u base id : gostring) :
  host_url u base -> trace_link u id = Some (base ++ lit "/trace/" ++ id).
Proof.
  intros (scheme & host & Hsch & Hne & Hh & -> & Hu).
  assert (Ea : exists r, u = scheme ++ r /\ url_authority r = host).
  { destruct Hu as [->| ->]; [exists host|exists (host ++ lit "/")]; (split; [rewrite ?app_assoc; reflexivity|]);
      destruct (url_authority_host host [] Hh) as [H1 H2]; assumption. }
  destruct Ea as (r & -> & Er). unfold trace_link. destruct host as [|c h]; [contradiction|].
  destruct Hsch as [->| ->].
  - rewrite after_prefix_app, Er. rewrite <- !app_assoc. reflexivity.
  - change (after_prefix (lit "http://") (lit "https://" ++ r)) with (@None gostring). cbv iota.
    rewrite after_prefix_app, Er. rewrite <- !app_assoc. reflexivity.
Qed.
Example trace_link_below_ui_ex :
  host_url (lit "http://localhost:16686") (lit "http://localhost:16686") /\
  trace_link (lit "http://localhost:16686") (lit "1f") = Some (lit "http://localhost:16686/trace/1f").
Proof.
  split; [|reflexivity]. exists (lit "http://"), (lit "localhost:16686"). split; [left; reflexivity|]. split; [discriminate|].
  split; [|split; [reflexivity|left; reflexivity]].
  apply Forall_forall. intros c Hc. cbn in Hc. cbn. intuition (subst; discriminate).
Qed.
(** A UI below a path loses the path. *)
Theorem trace_link_below_path_refuted :
  ~ (forall u id, trace_link (lit "http://h/" ++ u) id = Some (lit "http://h/" ++ u ++ lit "/trace/" ++ id)).
Proof. intros H. specialize (H (lit "jaeger") (lit "1")). discriminate H. Qed.
Print Assumptions trace_link_below_ui.
Print Assumptions trace_link_below_path_refuted.
