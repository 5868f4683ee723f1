(** C99, C101, C103: the whole PostgreSQL command. *)
From Coq Require Import String List NArith ZArith QArith Bool Lia Arith Sorting Permutation.
From Verif Require Import Base IndexText IndexTextSpec IndexTextProperties IndexBuild IndexBuildSpec TableFields BuildSpec BuildProofs BuildProperties
  Existing ExistingSpec ExistingProofs ExistingProperties
  PgAst PgCollect PgSpec PgProofs PgRegionProofs PgWalkSpec PgProperties
  ExplainTree ExplainSpec PgExplainSpec PlanView PlanViewSpec PlanViewProofs PlanViewProperties SqlServer MetaSql MetaSqlProofs Catalog CatalogSpec CatalogPgProperties SqlRun
  Examiner ExaminerProperties SuggestCmd CommandText HandOver HandOverSpec HandOverProofs HandOverProperties Program ProgramSpec ProgramProofs ProgramProperties.
From Verif Require PgExplain ConnText MysqlCollect MysqlProperties LoadChartsProperties.
Import ListNotations.
Local Open Scope string_scope.
Local Open Scope list_scope.
Local Open Scope nat_scope.

Section Pg.
Context {W : Type} (sv : world W) (norm : gostring -> gostring) (fold : rune -> rune) (so : list gostring -> list gostring)
  (ord : order gostring) (ordf : order ifield) (srt : list index_target_table -> list index_target_table)
  (unix : N) (rnds : nat -> N) (runs : bool) (texts : list gostring) (query output : gostring)
  (parse : gostring -> outcome (list node)).
Context (Hso : forall l, Permutation (so l) l) (Ho : is_order ord) (Hof : is_order ordf) (Hs : is_sort itt_less srt).

(** The tables of the only statement of the query *)
Definition pg_reads (t : gostring) : Prop := exists root, parse query = Ok [root] /\ table_read norm (fun _ => False) root t.
Lemma pg_explains : forall w, exists w' r, pg_explain sv query w = ([ASelect (explain_pg ++ query, [])], w', r).
Proof.
  intros w. unfold pg_explain, andthen. rewrite select_as_run. destruct (selected _ _ _ _) as [l|m|]; [|eauto|eauto].
  unfold give. rewrite app_nil_r. eauto.
Qed.
Lemma first_inl : forall {A} (r : A + list gostring) x, MysqlCollect.first_error r = Ok x -> r = inl x.
Proof. intros A [a|[|m l]] x H; try discriminate. now injection H as ->. Qed.
Lemma pg_suggest_inv : forall columns indexes parsed its, pg_suggest norm fold so ord ordf srt columns indexes parsed = Ok its ->
    exists root tables scopes, parsed = Ok [root] /\ collect_table_names norm so root = Ok (inl tables) /\
      suggest_from fold ord ordf srt columns (pg_get_indexes indexes) tables scopes = Ok its.
Proof.
  intros columns indexes parsed its H. unfold pg_suggest in H. destruct parsed as [stmts|m|]; [|discriminate|discriminate]. cbn [obind] in H.
  destruct stmts as [|root [|]]; [discriminate| |discriminate].
  destruct (collect_table_names norm so root) as [[tables|errs]| |] eqn:ET; cbn [obind MysqlCollect.first_error] in H; try discriminate; [|destruct errs; discriminate].
  exists root, tables. unfold suggest_from.
  destruct (collect_table_schemas columns tables) as [schemas|m|] eqn:ES; cbn [obind] in H; try discriminate.
  destruct (collect_scopes norm (lit "public") root) as [[scopes|errs]| |]; cbn [obind MysqlCollect.first_error] in H; try discriminate; [|destruct errs; discriminate].
  exists scopes. split; [reflexivity|]. split; [exact ET|]. rewrite ?ES. exact H.
Qed.
Lemma pg_suggests : forall schema w tr w' r, pg_suggest_with sv fold so ord ordf srt query norm parse schema w = (tr, w', r) ->
  (failed r /\ (tr = [] \/ exists rq, tr = [ASelect rq] /\ asks pg_reads schema rq)) \/
  exists rq rq', tr = [ASelect rq; ASelect rq'] /\ asks pg_reads schema rq /\ asks pg_reads schema rq' /\
    (failed r \/ exists its, r = Ok its /\ Forall (fun it => pg_reads (it_table it) /\ it_cols it <> []) its).
Proof.
  intros schema w tr w' r H. destruct (pg_suggest_steps sv fold so ord ordf srt query Ho Hof Hs norm parse _ _ _ _ _ H) as (w1 & HR & HSt).
  assert (HTab : forall root tables, parse query = Ok [root] -> collect_table_names norm so root = Ok (inl tables) ->
     forall x, In x tables -> pg_reads x).
  { intros root tables HP HT x Hx. exists root. split; [exact HP|]. now apply (pg_table_names_exact norm so root tables Hso HT). }
  destruct HSt as [(-> & _ & HF)|(tables & rq1 & (root & tn & HP & HT0 & HT) & E1 & Ew & HSt)]; [auto|].
  apply first_inl in HT. subst tn. specialize (HTab _ _ HP HT0).
  assert (A1 : asks pg_reads schema rq1) by (eapply pg_asks; [|exact HTab|exact E1]; cbn; tauto).
  destruct HSt as [(-> & _ & HF)|(names & rq2 & E2 & HI & -> & _)];
    [left; split; [exact HF|right; exists rq1; split; [reflexivity|exact A1]]|]. right. exists rq1, rq2.
  split; [reflexivity|]. split; [exact A1|]. split; [eapply pg_asks; [|intros x Hx; apply HTab, HI, Hx|exact E2]; cbn; tauto|].
  destruct r as [its|m|]; [|left; intros x; discriminate|left; intros x; discriminate]. right. exists its. split; [reflexivity|].
  symmetry in HR. destruct (pg_suggest_inv _ _ _ _ HR) as (root' & tables' & scopes & HP' & HT' & HF).
  rewrite HP in HP'. injection HP' as <-. rewrite HT0 in HT'. injection HT' as <-.
  assert (HC : exists rows, pg_columns (at_ sv w) schema tables = Ok rows).
  { unfold suggest_from, collect_table_schemas in HF. destruct tables; [discriminate|]. destruct (pg_columns _ _ _); try discriminate. eauto. }
  destruct HC as [rows HC].
  destruct (suggestions_useful_and_new _ _ _ _ _ _ _ _ _ _ Ho Hof Hs HC HF) as (names' & infos & _ & _ & HU).
  apply Forall_forall. intros it Hit. destruct (HU it Hit) as (_ & U1 & U2 & _). auto.
Qed.

(** ** C99 *)
(** As the MySQL command; the schema asked about is DB_SEARCH_PATH, or public. *)
Theorem pg_conversation : forall env w tr w' r,
    pg_main sv fold so ord ordf srt unix rnds runs texts query output norm parse env w = (tr, w', r) ->
    (tr = [] /\ failed r /\ (env (lit "DB_USERNAME") = [] \/ env (lit "DB_DATABASE") = [])) \/
    exists c connection, ConnText.pg_config_from_env env = Ok c /\ connection = ConnText.kv_connection_string c /\
      ((tr = [AOpen connection] /\ failed r) \/
      exists inner, tr = AOpen connection :: inner ++ [AClose] /\
        conversation pg_create_sql pg_drop_sql (lit "EXPLAIN (ANALYZE, BUFFERS) ") query
          (match env (lit "DB_SEARCH_PATH") with [] => lit "public" | p => p end) output runs
          (new_index_targets_from_texts texts) pg_reads (fun b e => exists w1, snd (on_write sv w1 output b) = e) inner r).
Proof.
  intros env w tr w' r H. unfold pg_main, ConnText.pg_config_from_env, ConnText.get_env in *.
  destruct (env (lit "DB_USERNAME")) as [|uc u] eqn:EU.
  { cbn [obind] in H. rewrite give_err in H. injection H as <- _ <-. left. split; [reflexivity|]. split; [intros x; discriminate|now left]. }
  cbn [obind] in H. destruct (env (lit "DB_DATABASE")) as [|dc d] eqn:ED.
  { cbn [obind] in H. rewrite give_err in H. injection H as <- _ <-. left. split; [reflexivity|]. split; [intros x; discriminate|now right]. }
  cbn [obind] in H. rewrite give_ok in H. unfold with_connection in H. right. eexists. eexists. split; [reflexivity|]. split; [reflexivity|].
  destruct (on_open sv w _) as [w1 [e|]].
  { injection H as <- _ <-. left. split; [reflexivity|intros x; discriminate]. }
  right. unfold ConnText.search_path_or_public in H. cbn [ConnText.pg_search_path] in H. set (schema := match env (lit "DB_SEARCH_PATH") with [] => lit "public" | p => p end) in *.
  destruct (pg_suggest_cmd sv fold so ord ordf srt unix rnds runs texts query output norm parse schema w1) as [[inner w2] r2] eqn:EC.
  injection H as <- _ <-. exists inner. split; [reflexivity|].
  exact (command_conversation sv (pg_explain sv query) (pg_suggest_with sv fold so ord ordf srt query norm parse schema) _ _ _
    (fun plan its => suggest_html SubPostgres runs output query [] None [] (plan_view pg_vm (fst plan)) (snd plan) its) unix rnds runs texts explain_pg query
    schema output pg_reads pg_explains (pg_suggests schema) _ _ _ _ EC).
Qed.

(** ** C103 *)
Definition pg_serves (reserved : gostring -> bool) (coll : gostring -> gostring -> comparison) (cat : W -> pg_catalog) : Prop :=
  (forall w, pg_sound (cat w)) /\
  (forall w, answers_from (pg_database reserved coll (cat w)) (fun rq => snd (on_select sv w rq))) /\
  (forall w text args q, parse_sql text = Some q -> cat (fst (on_select sv w (text, args))) = cat w).
(** A suggestion worth its name, against a catalog *)
Definition pg_worth (reserved : gostring -> bool) (cat : pg_catalog) (schema : gostring) (root : node) (it : index_target) : Prop :=
  table_read norm (fun _ => False) root (it_table it) /\ it_cols it <> [] /\ NoDup (it_cols it) /\
  (forall c, In c (it_cols it) ->
     (exists o num, pg_table cat schema (it_table it) o /\ pg_column cat o c num) /\ exists m, within root m /\ names_column norm m c) /\
  (exists c, In c (it_cols it) /\ forall o num x, pg_table cat schema (it_table it) o -> pg_column cat o c num -> pg_has_index cat o num x -> x_primary x = false) /\
  (forall x cs, pg_index_of cat schema (it_table it) x -> plain_index reserved cat x cs -> ~ Forall2 (same_name fold) (it_cols it) cs).
Theorem pg_report : forall reserved coll cat schema w tr w' format psrt bsrt checked,
    pg_serves reserved coll cat -> (forall a b, coll a b = Eq <-> a = b) ->
    (forall root, parse query = Ok [root] -> supported norm public root /\ distinct root) ->
    is_sort faster psrt -> is_sort bar_less bsrt -> output <> [] ->
    pg_suggest_cmd sv fold so ord ordf srt unix rnds runs texts query output norm parse schema w = (tr, w', Ok tt) ->
    exists before b w1 rows lines nodes summary root its er,
      tr = before ++ [AWrite output b] /\
      on_select sv w (lit "EXPLAIN (ANALYZE, BUFFERS) " ++ query, []) = (w1, Ok rows) /\
      Forall2 (fun r s => exists n, r = [(n, VText s)]) rows lines /\
      (forall body first rest, lines = body ++ first :: rest -> body <> [] ->
         Forall (fun l => ~ summary_line l) body -> summary_line first ->
         summary = join [Base.nl] (first :: rest) /\
         exists p, plan_page pg_end bsrt nodes = Ok (Some p) /\ join [Base.nl] (pp_texts p) = join [Base.nl] body) /\
      parse query = Ok [root] /\ Forall (pg_worth reserved (cat w1) schema root) its /\
      (exists w2, cat w2 = cat w1 /\ pg_suggest norm fold so ord ordf srt (pg_columns (fun rq => snd (on_select sv w1 rq)) schema)
         (pg_indexes (fun rq => snd (on_select sv w2 rq)) schema) (parse query) = Ok its) /\
      (if runs then exists vars targets er', er = Some er' /\ new_index_targets_from_texts texts = Ok vars /\
         (vars <> [] /\ targets = vars \/ vars = [] /\ forall it, In it targets <-> In it its /\ identifier (it_table it) /\ Forall (Forall word_char) (it_cols it)) /\
         map ir_target (er_results er') = targets
       else er = None) /\
      ((forall er', er = Some er' -> er_results er' <> []) ->
       exists exam, browse format psrt checked b =
           Ok (sql_cards SubPostgres query ++ plan_cards SubPostgres nodes summary ++
               suggestion_cards SubPostgres its er
                 (build_command_text SubPostgres (still_checked checked its) (report_options SubPostgres runs output query [])) ++ exam) /\
         is_exam_card SubPostgres er exam).
Proof.
  intros reserved coll cat schema w tr w' format psrt bsrt checked (HSo & HAn & HCat) HC HSu Hps Hbs HO H.
  destruct (command_ok sv (pg_explain sv query) (pg_suggest_with sv fold so ord ordf srt query norm parse schema) (pg_examiner (server_of sv query)) pg_create_sql pg_drop_sql
    (fun plan its => suggest_html SubPostgres runs output query [] None [] (plan_view pg_vm (fst plan)) (snd plan) its) unix rnds runs texts explain_pg query
    output pg_explains _ _ _ H) as (vars & w1 & plan & w2 & tr2 & its & er & EV & EE & ES & EX & EW).
  destruct (EW HO) as (before & ->). clear EW.
  (* the plan *)
  unfold pg_explain in EE. remember ((explain_pg ++ query, []) : request) as rq eqn:Erq. apply andthen_inv in EE. destruct EE as (tr1 & w1' & r1 & E1 & EE). rewrite select_as_run in E1. injection E1 as <- <- Er.
  destruct r1 as [lines|m|]; [|destruct EE as (_ & _ & EE); discriminate|destruct EE as (_ & _ & EE); discriminate].
  destruct EE as (tr3 & EE & _). unfold give in EE. injection EE as _ Ew EB.
  unfold selected, at_ in Er. destruct (on_select sv w rq) as [w1'' a] eqn:EO. cbn [fst snd] in Er, Ew. subst w1''.
  destruct a as [rs|m|]; try discriminate. cbn [obind] in Er.
  assert (HRow : Forall2 (fun r s => exists n, r = [(n, VText s)]) rs lines).
  { destruct (scan_all scan_single rs) as [ls|m|] eqn:ESc; [|discriminate|discriminate]. injection Er as ->. now apply scanned_lines. }
  (* the suggestions *)
  destruct (pg_suggest_steps sv fold so ord ordf srt query Ho Hof Hs norm parse _ _ _ _ _ ES) as (w3 & HR & HSt).
  destruct HSt as [(_ & _ & HF)|(tables & rq1 & (root & tn & HP & HT0 & HT) & Erq1 & Ew3 & HSt)]; [elim (HF _ eq_refl)|].
  destruct HSt as [(_ & _ & HF)|(names & rq2 & Erq2 & HIn & _ & _)]; [elim (HF _ eq_refl)|].
  symmetry in HR. rewrite HP in HR.
  assert (HCat3 : cat w3 = cat w1).
  { subst w3. pose proof (pg_asks (fun _ => True) pg_column_template schema tables rq1 (or_introl eq_refl) (fun _ _ => I) Erq1) as (ts & q & _ & _ & _ & HQ).
    destruct rq1 as [t1 a1]. exact (HCat _ _ _ _ HQ). }
  pose proof (HAn w3) as HAn3. rewrite HCat3 in HAn3. destruct (HSu root HP) as [HSup HDis].
  pose proof (pg_suggestions_against_catalog norm fold so ord ordf srt reserved coll (cat w1) _ _ schema root its Hso Ho Hof Hs HC (HSo w1) (HAn w1) HAn3
    HSup HDis HR) as HWorth.
  assert (HIts : Forall (pg_worth reserved (cat w1) schema root) its) by (apply Forall_forall; exact HWorth).
  assert (HCols : Forall has_columns its) by (eapply Forall_impl; [|exact HIts]; intros it (_ & K & _); exact K).
  exists before. eexists. exists w1, rs, lines, (plan_view pg_vm (fst plan)), (snd plan), root, its, er.
  split; [reflexivity|]. split; [subst rq; exact EO|]. split; [exact HRow|]. split.
  { intros body first rest -> HN HB HF. destruct plan as [t s].
    destruct (pg_plan_shown bsrt body first rest t s Hbs HN HB HF EB) as (P1 & p & P2 & P3 & _). split; [exact P1|]. exists p. auto. }
  split; [exact HP|]. split; [exact HIts|]. split; [exists w3; split; [exact HCat3|rewrite HP; exact HR]|].
  assert (HVars : Forall has_columns vars) by exact (given_columns _ _ EV).
  assert (HEx : when_some (fun er' => Forall (fun r => has_columns (ir_target r)) (er_results er')) er).
  { destruct runs; [|subst er; exact I]. destruct EX as (evs & w4 & er' & -> & HRun).
    destruct (examination_results_faithful _ _ _ _ _ _ _ _ _ HRun) as [HM _]. cbn [when_some].
    apply (proj1 (Forall_map ir_target has_columns (er_results er'))). rewrite HM. destruct vars; [|exact HVars].
    apply Forall_forall. intros x Hx. apply filter_In in Hx. rewrite Forall_forall in HCols. apply HCols, Hx. }
  split.
  { destruct runs; [|exact EX]. destruct EX as (evs & w4 & er' & -> & HRun).
    destruct (examination_results_faithful _ _ _ _ _ _ _ _ _ HRun) as [HM _].
    exists vars. eexists. exists er'. split; [reflexivity|]. split; [exact EV|]. split; [|exact HM].
    destruct vars as [|v vs]; [right|left; split; [discriminate|reflexivity]]. split; [reflexivity|]. intros it. rewrite filter_In, is_safe_exact. reflexivity. }
  intros HNe.
  assert (HE2 : when_some examined er) by (destruct er as [er'|]; [|exact I]; split; [now apply HNe|exact HEx]).
  exact (suggest_report_cards format psrt checked SubPostgres runs output query [] None [] query (plan_view pg_vm (fst plan)) (snd plan) its er
    Hps HCols HE2 eq_refl).
Qed.

(** ** C100 *)
(** Statements are executed only with the option to examine: the query itself, and the
    creation and removal of indexes for the targets.  At most three questions, one report,
    at the place asked for, after all statements. *)
Theorem pg_talk : forall env w tr w' r,
    pg_main sv fold so ord ordf srt unix rnds runs texts query output norm parse env w = (tr, w', r) ->
    (forall s, In (AExec s) tr -> runs = true /\ exists v targets, new_index_targets_from_texts texts = Ok v /\ targets_of pg_reads v targets /\
       (s = query \/ exists n it, In it targets /\ (s = pg_create_sql n it \/ s = pg_drop_sql n it))) /\
    length (filter is_select tr) <= 3 /\
    (forall p b, In (AWrite p b) tr -> p = output /\ output <> [] /\ exists before, tr = before ++ [AWrite p b; AClose] /\ filter is_write before = []) /\
    (r = Ok tt -> output <> [] -> exists b w1, In (AWrite output b) tr /\ snd (on_write sv w1 output b) = None).
Proof.
  intros env w tr w' r H. destruct (pg_conversation _ _ _ _ _ H) as [(-> & HF & _)|(c & conn & _ & _ & [(-> & HF)|(inner & -> & HC)])].
  - split; [intros s []|]. split; [cbn; lia|]. split; [intros p b []|]. intros ->. elim (HF tt eq_refl).
  - split; [intros s [Hx|[]]; discriminate|]. split; [cbn; lia|]. split; [intros p b [Hx|[]]; discriminate|]. intros ->. elim (HF tt eq_refl).
  - split; [|split; [|split]].
    + intros s [Hx|Hx]; [discriminate|]. apply in_app_or in Hx. destruct Hx as [Hx|[Hx|[]]]; [|discriminate]. exact (talk_executes _ _ _ _ _ _ _ _ _ _ _ _ _ HC Hx).
    + cbn [filter is_select]. rewrite filter_app, app_length. cbn [filter is_select length]. rewrite Nat.add_0_r. exact (talk_questions _ _ _ _ _ _ _ _ _ _ _ _ HC).
    + intros p b [Hx|Hx]; [discriminate|]. apply in_app_or in Hx. destruct Hx as [Hx|[Hx|[]]]; [|discriminate].
      destruct (talk_writes _ _ _ _ _ _ _ _ _ _ _ _ _ _ HC Hx) as (E1 & E2 & before & -> & HB). split; [exact E1|]. split; [exact E2|].
      exists (AOpen conn :: before). split; [rewrite <- app_assoc; reflexivity|exact HB].
    + intros -> HO. destruct (talk_success _ _ _ _ _ _ _ _ _ _ _ HC) as (v & rq & rq' & exam & _ & _ & _ & _ & HX).
      destruct output as [|oc o] eqn:EO; [congruence|]. destruct HX as (b & -> & w1 & HW). exists b, w1. split; [|exact HW]. right. apply in_or_app. left. do 3 right. apply in_or_app. right. now left.
Qed.

(** ** C101 *)
(** A query the tool cannot make one statement of is refused; but by then it has run, as it
    is, behind the words EXPLAIN ANALYZE, whatever its text. *)
Theorem pg_refused_has_run : forall env w c vars w0 tr w' r,
    ConnText.pg_config_from_env env = Ok c -> new_index_targets_from_texts texts = Ok vars ->
    on_open sv w (ConnText.kv_connection_string c) = (w0, None) -> (forall root, parse query <> Ok [root]) ->
    pg_main sv fold so ord ordf srt unix rnds runs texts query output norm parse env w = (tr, w', r) ->
    failed r /\ tr = [AOpen (ConnText.kv_connection_string c); ASelect (lit "EXPLAIN (ANALYZE, BUFFERS) " ++ query, []); AClose] /\
    w' = on_close sv (fst (on_select sv w0 (lit "EXPLAIN (ANALYZE, BUFFERS) " ++ query, []))).
Proof.
  intros env w c vars w0 tr w' r HCf HV HOp HN H. unfold pg_main in H. rewrite HCf, give_ok in H. unfold with_connection in H. rewrite HOp in H.
  unfold pg_suggest_cmd in H. rewrite HV in H. rewrite give_ok in H.
  match type of H with context [andthen ?p ?f w0] => destruct (andthen p f w0) as [[inner w2] r2] eqn:EA end.
  injection H as <- <- <-. apply andthen_inv in EA. destruct EA as (tr1 & w1 & r1 & E1 & EA).
  assert (EW : tr1 = [ASelect (lit "EXPLAIN (ANALYZE, BUFFERS) " ++ query, [])] /\ w1 = fst (on_select sv w0 (lit "EXPLAIN (ANALYZE, BUFFERS) " ++ query, []))).
  { unfold pg_explain in E1. change (lit "EXPLAIN (ANALYZE, BUFFERS) ") with explain_pg. remember ((explain_pg ++ query, []) : request) as rq eqn:Erq.
    apply andthen_inv in E1. destruct E1 as (tr2 & w3 & r3 & E3 & E1). rewrite select_as_run in E3. injection E3 as <- <- Er.
    destruct r3 as [l|m|]; [|destruct E1 as (-> & -> & _); auto|destruct E1 as (-> & -> & _); auto].
    destruct E1 as (tr4 & E1 & ->). unfold give in E1. injection E1 as <- <- _. auto. }
  destruct EW as [-> <-].
  destruct r1 as [plan|m|]; [|destruct EA as (-> & -> & ->); split; [intros x; discriminate|auto]|destruct EA as (-> & -> & ->); split; [intros x; discriminate|auto]].
  destruct EA as (tr2 & EA & ->). apply andthen_inv in EA. destruct EA as (tr3 & w3 & r3 & E3 & EA).
  destruct (pg_suggest_steps sv fold so ord ordf srt query Ho Hof Hs norm parse _ _ _ _ _ E3) as (w4 & _ & HSt).
  destruct HSt as [(-> & -> & HF)|(tables & rq1 & (root & tn & HP & _) & _)]; [|elim (HN root HP)].
  destruct r3 as [its|m|]; [elim (HF its eq_refl)| |]; destruct EA as (-> & -> & ->); (split; [intros x; discriminate|auto]).
Qed.
End Pg.

(** A server as [ex_world] of the MySQL file *)
Definition ex_world : world nat := {|
  on_open := fun n _ => (n, None);
  on_select := fun n rq =>
    match parse_sql (fst rq) with
    | Some _ => (n, run_server pg_db rq)
    | None => (S n, Ok (map (fun l => [(lit "QUERY PLAN", VText l)])
        [lit "Seq Scan on users  (cost=0.00..1.50 rows=3 width=8) (actual time=0.01..0.02 rows=3 loops=1)";
         lit "Planning Time: 0.1 ms"; lit "Execution Time: 0.2 ms"]))
    end;
  on_exec := fun n _ => (S n, inl (Z.of_nat n));
  on_write := fun n _ _ => (n, None);
  on_close := fun n => n |}.
Definition ex_env (k : gostring) : gostring :=
  if seqb k (lit "DB_USERNAME") then lit "me" else if seqb k (lit "DB_DATABASE") then lit "db" else [].
Definition ex_query := lit "select ...".
Definition ex_run (runs : bool) (texts : list gostring) (output : gostring) :=
  pg_main ex_world ascii_fold (fun l => l) id_ord id_ord isort 7 (fun _ => 0%N) runs texts ex_query output low (fun _ => Ok [ex_stmt]) ex_env 0.
Definition short (a : act) : gostring :=
  match a with
  | AOpen c => lit "open " ++ c
  | ASelect (t, args) => match args with [] => t | _ => lit "ask about " ++ join (lit ",") args end
  | AExec s => s
  | APost p _ => lit "post " ++ p
  | AWrite p _ => lit "write " ++ p
  | AClose => lit "close"
  end.
Example pg_conversation_ex :
  map short (fst (fst (ex_run true [lit "users:email"] (lit "out.html")))) =
  [lit "open user='me' dbname='db' sslmode=disable"; lit "EXPLAIN (ANALYZE, BUFFERS) select ..."; lit "ask about public,tasks,users"; lit "ask about public,tasks,users";
   ex_query; lit "CREATE INDEX ""7_email"" ON ""users"" (""email"")"; ex_query; lit "DROP INDEX ""7_email"""; lit "write out.html"; lit "close"] /\
  snd (ex_run true [lit "users:email"] (lit "out.html")) = Ok tt /\
  map short (fst (fst (ex_run false [] []))) =
  [lit "open user='me' dbname='db' sslmode=disable"; lit "EXPLAIN (ANALYZE, BUFFERS) select ..."; lit "ask about public,tasks,users"; lit "ask about public,tasks,users"; lit "close"].
Proof. split; [|split]; vm_compute; reflexivity. Qed.
Print Assumptions pg_conversation.
Print Assumptions pg_talk.
Lemma ex_world_serves : pg_serves ex_world no_words bytewise (fun _ => pg_cat).
Proof.
  split; [intros _; apply pg_cat_sound|]. split; [|reflexivity]. intros n text args rows q H HQ. cbn [on_select ex_world fst] in H. rewrite HQ in H.
  exact (run_server_answers pg_db text args rows q H HQ).
Qed.
Example pg_report_ex : pg_serves ex_world no_words bytewise (fun _ => pg_cat) /\ supported low public ex_stmt /\ distinct ex_stmt /\
  is_sort faster (LoadChartsProperties.sort_by faster) /\ is_sort bar_less (@sort_bars vm_node) /\
  exists tr w' b shown,
    pg_suggest_cmd ex_world ascii_fold (fun l => l) id_ord id_ord isort 7 (fun _ => 0%N) true [lit "users:email"] ex_query (lit "out.html")
      low (fun _ => Ok [ex_stmt]) public 0 = (tr, w', Ok tt) /\
    last tr AClose = AWrite (lit "out.html") b /\ browse (fun q => Ok q) (LoadChartsProperties.sort_by faster) [] b = Ok shown /\ length shown = 5.
Proof.
  split; [apply ex_world_serves|]. split; [apply ex_supported|]. split; [apply ex_distinct|]. split; [apply faster_sort|]. split; [apply sort_bars_ok|].
  do 4 eexists. split; [vm_compute; reflexivity|]. split; [cbn [last]; reflexivity|]. split; vm_compute; reflexivity.
Qed.
Print Assumptions pg_report.

(** A server that runs every statement of a text, as PostgreSQL does when there are no
    arguments (simple query protocol), and remembers them. *)
Definition all_statements : world (list gostring) := {|
  on_open := fun l _ => (l, None);
  on_select := fun l rq => (l ++ split 59%N (fst rq), snd (on_select ex_world 0 rq));
  on_exec := fun l s => (l ++ split 59%N s, inl 1%Z);
  on_write := fun l _ _ => (l, None);
  on_close := fun l => l |}.
(** The command refuses a query of two statements; the second has been executed. *)
Theorem pg_refused_unharmed_refuted : exists w' tr,
    pg_main all_statements ascii_fold (fun l => l) id_ord id_ord isort 7 (fun _ => 0%N) false [] (lit "SELECT 1; DELETE FROM users") []
      low (fun _ => Ok [ex_stmt; ex_stmt]) ex_env [] = (tr, w', Err (lit "not supporting query having multiple statements")) /\
    w' = [lit "EXPLAIN (ANALYZE, BUFFERS) SELECT 1"; lit " DELETE FROM users"].
Proof. do 2 eexists. split; vm_compute; reflexivity. Qed.
Example pg_refused_has_run_ex : ConnText.pg_config_from_env ex_env <> Panic /\ forall root, @Ok (list node) [ex_stmt; ex_stmt] <> Ok [root].
Proof. split; [vm_compute; discriminate|discriminate]. Qed.
Print Assumptions pg_refused_has_run.
Print Assumptions pg_refused_unharmed_refuted.
