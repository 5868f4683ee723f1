(** C99, C100, C102: the whole MySQL command. *)
From Coq Require Import String List NArith ZArith QArith Bool Lia Arith Sorting Permutation.
From Verif Require Import Base IndexText IndexTextSpec IndexTextProperties IndexBuild IndexBuildSpec TableFields BuildSpec BuildProofs BuildProperties
  Existing ExistingSpec ExistingProofs ExistingProperties
  MysqlAst MysqlCollect MysqlSpec MysqlProofs MysqlProperties
  ExplainTree PlanView PlanViewSpec PlanViewProofs PlanViewProperties SqlServer MetaSql MetaSqlProofs Catalog CatalogSpec CatalogMyProperties SqlRun
  Examiner ExaminerProperties SuggestCmd CommandText HandOver HandOverSpec HandOverProofs HandOverProperties Program ProgramSpec ProgramProofs ProgramProperties.
From Verif Require MysqlExplain ConnText LoadChartsProperties.
Import ListNotations.
Local Open Scope string_scope.
Local Open Scope list_scope.
Local Open Scope nat_scope.

Section My.
Context {W : Type} (sv : world W) (low fold : rune -> rune) (so : list gostring -> list gostring)
  (ord : order gostring) (ordf : order ifield) (srt : list index_target_table -> list index_target_table)
  (unix : N) (rnds : nat -> N) (runs : bool) (texts : list gostring) (query output : gostring)
  (parse : gostring -> outcome (list node)).
Context (Hso : forall l, Permutation (so l) l) (Ho : is_order ord) (Hof : is_order ordf) (Hs : is_sort itt_less srt).

(** The tables of the first statement of the query *)
Definition my_reads (t : gostring) : Prop :=
  exists root rest, parse query = Ok (root :: rest) /\ reads low (fun _ => False) root t.
Lemma my_explains : forall w, exists w' r, mysql_explain sv query w = ([ASelect (explain_mysql ++ query, [])], w', r).
Proof.
  intros w. unfold mysql_explain, andthen. rewrite select_as_run. destruct (selected _ _ _ _) as [l|m|]; [|eauto|eauto].
  unfold give. rewrite app_nil_r. eauto.
Qed.
Lemma first_inl : forall {A} (r : A + list gostring) x, first_error r = Ok x -> r = inl x.
Proof. intros A [a|[|m l]] x H; try discriminate. now injection H as ->. Qed.
Lemma my_suggests : forall db w tr w' r, mysql_suggest_with sv fold so ord ordf srt query low parse db w = (tr, w', r) ->
  (failed r /\ (tr = [] \/ exists rq, tr = [ASelect rq] /\ asks my_reads db rq)) \/
  exists rq rq', tr = [ASelect rq; ASelect rq'] /\ asks my_reads db rq /\ asks my_reads db rq' /\
    (failed r \/ exists its, r = Ok its /\ Forall (fun it => my_reads (it_table it) /\ it_cols it <> []) its).
Proof.
  intros db w tr w' r H. destruct (mysql_suggest_steps sv fold so ord ordf srt query Ho Hof Hs low parse _ _ _ _ _ H) as (w1 & HR & HSt).
  assert (HTab : forall root rest tables, parse query = Ok (root :: rest) -> collect_table_names low so root = inl tables ->
     forall x, In x tables -> my_reads x).
  { intros root rest tables HP HT x Hx. exists root, rest. split; [exact HP|]. now apply (mysql_table_names_exact low so root tables Hso HT). }
  destruct HSt as [(-> & _ & HF)|(tables & rq1 & (root & rest & HP & HT) & E1 & Ew & HSt)]; [auto|].
  apply first_inl in HT. specialize (HTab _ _ _ HP HT).
  assert (A1 : asks my_reads db rq1) by (eapply my_asks; [|exact HTab|exact E1]; cbn; tauto).
  destruct HSt as [(-> & _ & HF)|(names & rq2 & E2 & HI & -> & _)];
    [left; split; [exact HF|right; exists rq1; split; [reflexivity|exact A1]]|]. right. exists rq1, rq2.
  split; [reflexivity|]. split; [exact A1|]. split; [eapply my_asks; [|intros x Hx; apply HTab, HI, Hx|exact E2]; cbn; tauto|].
  destruct r as [its|m|]; [|left; intros x; discriminate|left; intros x; discriminate]. right. exists its. split; [reflexivity|].
  symmetry in HR. destruct (mysql_suggest_inv _ _ _ _ _ _ _ _ _ _ HR) as (root' & rest' & tables' & scopes & HP' & HT' & _ & HF).
  rewrite HP in HP'. injection HP' as <- <-. rewrite HT in HT'. injection HT' as <-.
  assert (HC : exists rows, mysql_columns (at_ sv w) db tables = Ok rows).
  { unfold suggest_from, collect_table_schemas in HF. destruct tables; [discriminate|]. destruct (mysql_columns _ _ _); try discriminate. eauto. }
  destruct HC as [rows HC].
  destruct (suggestions_useful_and_new _ _ _ _ _ _ _ _ _ _ Ho Hof Hs HC HF) as (names' & infos & _ & _ & HU).
  apply Forall_forall. intros it Hit. destruct (HU it Hit) as (_ & U1 & U2 & _). auto.
Qed.

(** ** C99 *)
(** Everything the command sends: nothing without a configuration; otherwise it opens the
    connection, explains the query, asks about the columns and then the indexes of the
    tables of the query, tries the indexes if it is told to, writes the report, and
    closes the connection whatever happened. *)
Theorem mysql_conversation : forall env w tr w' r,
    mysql_main sv fold so ord ordf srt unix rnds runs texts query output low parse env w = (tr, w', r) ->
    (tr = [] /\ failed r /\ (env (lit "DB_USERNAME") = [] \/ env (lit "DB_DATABASE") = [])) \/
    exists c connection, ConnText.my_config_from_env env = Ok c /\ connection = ConnText.to_dsn c /\
      ((tr = [AOpen connection] /\ failed r) \/
      exists inner, tr = AOpen connection :: inner ++ [AClose] /\
        conversation mysql_create_sql mysql_drop_sql (lit "EXPLAIN ANALYZE FORMAT=TREE ") query (env (lit "DB_DATABASE")) output runs
          (new_index_targets_from_texts texts) my_reads (fun b e => exists w1, snd (on_write sv w1 output b) = e) inner r).
Proof.
  intros env w tr w' r H. unfold mysql_main, ConnText.my_config_from_env, ConnText.get_env in *.
  destruct (env (lit "DB_USERNAME")) as [|uc u] eqn:EU.
  { cbn [obind] in H. rewrite give_err in H. injection H as <- _ <-. left. split; [reflexivity|]. split; [intros x; discriminate|now left]. }
  cbn [obind] in H. destruct (env (lit "DB_DATABASE")) as [|dc d] eqn:ED.
  { cbn [obind] in H. rewrite give_err in H. injection H as <- _ <-. left. split; [reflexivity|]. split; [intros x; discriminate|now right]. }
  cbn [obind] in H. rewrite give_ok in H. unfold with_connection in H. right. eexists. eexists. split; [reflexivity|]. split; [reflexivity|].
  destruct (on_open sv w _) as [w1 [e|]].
  { injection H as <- _ <-. left. split; [reflexivity|intros x; discriminate]. }
  right. destruct (mysql_suggest_cmd sv fold so ord ordf srt unix rnds runs texts query output low parse _ w1) as [[inner w2] r2] eqn:EC.
  injection H as <- _ <-. exists inner. split; [reflexivity|].
  exact (command_conversation sv (mysql_explain sv query) (mysql_suggest_with sv fold so ord ordf srt query low parse (dc :: d)) _ _ _
    (fun plan its => suggest_html SubMysql runs output query [] None [] (plan_view mysql_vm plan) [] its) unix rnds runs texts explain_mysql query
    (dc :: d) output my_reads my_explains (my_suggests (dc :: d)) _ _ _ _ EC).
Qed.

(** ** C102 *)
(** The server has a catalog in every state; the questions about it are answered from it
    and leave it as it is. *)
Definition my_serves (coll : gostring -> gostring -> comparison) (cat : W -> my_catalog) : Prop :=
  (forall w, my_sound (cat w)) /\
  (forall w, answers_from (my_database coll (cat w)) (fun rq => snd (on_select sv w rq))) /\
  (forall w text args q, parse_sql text = Some q -> cat (fst (on_select sv w (text, args))) = cat w).
(** A suggestion worth its name, against a catalog *)
Definition my_worth (cat : my_catalog) (schema : gostring) (it : index_target) : Prop :=
  my_reads (it_table it) /\ it_cols it <> [] /\ NoDup (it_cols it) /\
  (forall c, In c (it_cols it) -> exists col, my_column_of cat schema (it_table it) col /\ mc_name col = c) /\
  (exists c, In c (it_cols it) /\ forall col, my_column_of cat schema (it_table it) col -> mc_name col = c -> mc_key col <> lit "PRI") /\
  (forall i parts, parts <> [] -> (forall s, In s parts <-> my_part_of cat schema (it_table it) i s) ->
     StronglySorted (fun a b => (ms_seq a < ms_seq b)%Z) parts ->
     ~ Forall2 (fun c s => exists n, ms_col s = Some n /\ same_name fold c n) (it_cols it) parts).
(** The report of a command that succeeded opens in the browser (unless an examination
    had nothing to try) and shows: the query; line by line the plan the server gave;
    suggestions that are worth their name in the catalog; and, if the command examined,
    the time of every target tried. *)
Theorem mysql_report : forall coll cat db w tr w' format psrt bsrt checked,
    my_serves coll cat -> (forall w tables, (forall t, In t tables -> my_reads t) -> my_names_apart coll (cat w) db tables) ->
    is_sort faster psrt -> is_sort bar_less bsrt -> output <> [] ->
    mysql_suggest_cmd sv fold so ord ordf srt unix rnds runs texts query output low parse db w = (tr, w', Ok tt) ->
    exists before b w1 name text rows nodes its er,
      tr = before ++ [AWrite output b] /\
      on_select sv w (lit "EXPLAIN ANALYZE FORMAT=TREE " ++ query, []) = (w1, Ok ([(name, VText text)] :: rows)) /\
      (let lines := filter (fun l => match l with [] => false | _ => true end) (split Base.nl text) in
       (lines = [] -> nodes = None) /\
       (lines <> [] -> exists p, plan_page mysql_end bsrt nodes = Ok (Some p) /\ pp_texts p = lines)) /\
      Forall (my_worth (cat w1) db) its /\
      (exists w2, cat w2 = cat w1 /\ MysqlCollect.mysql_suggest low fold so ord ordf srt (mysql_columns (fun rq => snd (on_select sv w1 rq)) db)
         (mysql_indexes (fun rq => snd (on_select sv w2 rq)) db) (parse query) = Ok its) /\
      (if runs then exists vars targets er', er = Some er' /\ new_index_targets_from_texts texts = Ok vars /\
         (vars <> [] /\ targets = vars \/ vars = [] /\ forall it, In it targets <-> In it its /\ identifier (it_table it) /\ Forall (Forall word_char) (it_cols it)) /\
         map ir_target (er_results er') = targets
       else er = None) /\
      ((forall er', er = Some er' -> er_results er' <> []) ->
       exists exam, browse format psrt checked b =
           Ok (sql_cards SubMysql query ++ plan_cards SubMysql nodes [] ++
               suggestion_cards SubMysql its er
                 (build_command_text SubMysql (still_checked checked its) (report_options SubMysql runs output query [])) ++ exam) /\
         is_exam_card SubMysql er exam).
Proof.
  intros coll cat db w tr w' format psrt bsrt checked (HSo & HAn & HCat) HNa Hps Hbs HO H.
  destruct (command_ok sv (mysql_explain sv query) (mysql_suggest_with sv fold so ord ordf srt query low parse db) (mysql_examiner (server_of sv query)) mysql_create_sql mysql_drop_sql
    (fun plan its => suggest_html SubMysql runs output query [] None [] (plan_view mysql_vm plan) [] its) unix rnds runs texts explain_mysql query
    output my_explains _ _ _ H) as (vars & w1 & plan & w2 & tr2 & its & er & EV & EE & ES & EX & EW).
  destruct (EW HO) as (before & ->). clear EW.
  (* the plan *)
  unfold mysql_explain in EE. remember ((explain_mysql ++ query, []) : request) as rq eqn:Erq. apply andthen_inv in EE. destruct EE as (tr1 & w1' & r1 & E1 & EE). rewrite select_as_run in E1. injection E1 as <- <- Er.
  destruct r1 as [l|m|]; [|destruct EE as (_ & _ & EE); discriminate|destruct EE as (_ & _ & EE); discriminate].
  destruct EE as (tr3 & EE & _). unfold give in EE. injection EE as _ Ew EB. destruct l as [|text lines]; [discriminate|].
  unfold selected, at_ in Er. destruct (on_select sv w rq) as [w1'' a] eqn:EO. cbn [fst snd] in Er, Ew. subst w1''.
  destruct a as [rs|m|]; try discriminate. cbn [obind] in Er.
  assert (HRow : exists name rest, rs = [(name, VText text)] :: rest).
  { destruct (scan_all scan_single rs) as [ls|m|] eqn:ESc; [|discriminate|discriminate]. injection Er as ->.
    apply scanned_lines in ESc. inversion ESc as [|r0 s0 rs0 ls0 (n & En) HR0]; subst. eauto. }
  destruct HRow as (name & rest & ->).
  (* the suggestions *)
  destruct (mysql_suggest_steps sv fold so ord ordf srt query Ho Hof Hs low parse _ _ _ _ _ ES) as (w3 & HR & HSt).
  destruct HSt as [(_ & _ & HF)|(tables & rq1 & (root & rst & HP & HT) & Erq1 & Ew3 & HSt)]; [elim (HF _ eq_refl)|].
  destruct HSt as [(_ & _ & HF)|(names & rq2 & Erq2 & HIn & _ & _)]; [elim (HF _ eq_refl)|].
  symmetry in HR. rewrite HP in HR.
  assert (HCat3 : cat w3 = cat w1).
  { subst w3. pose proof (my_asks (fun _ => True) mysql_column_template db tables rq1 (or_introl eq_refl) (fun _ _ => I) Erq1) as (ts & q & _ & _ & _ & HQ).
    destruct rq1 as [t1 a1]. exact (HCat _ _ _ _ HQ). }
  pose proof (HAn w3) as HAn3. rewrite HCat3 in HAn3.
  pose proof (mysql_suggestions_against_catalog low fold so ord ordf srt coll (cat w1) _ _ db root rst its Hso Ho Hof Hs (HSo w1) (HAn w1) HAn3
    (fun tables Hr => HNa w1 tables (fun t Ht => ex_intro _ root (ex_intro _ rst (conj HP (Hr t Ht))))) HR) as HWorth.
  assert (HIts : Forall (my_worth (cat w1) db) its).
  { apply Forall_forall. intros it Hit. destruct (HWorth it Hit) as (U1 & U2). split; [now exists root, rst|exact U2]. }
  assert (HCols : Forall has_columns its) by (eapply Forall_impl; [|exact HIts]; intros it (_ & K & _); exact K).
  exists before. eexists. exists w1, name, text, rest, (plan_view mysql_vm plan), its, er.
  split; [reflexivity|]. split; [subst rq; exact EO|].
  pose proof (mysql_plan_shown bsrt text plan Hbs EB) as [HPl1 HPl2]. split.
  { split.
    - intros HE. specialize (HPl1 HE). unfold plan_view in *. destruct (t_children plan); [reflexivity|].
      match type of HPl1 with plan_page _ _ (Some ?l) = _ => destruct (plan_page_total mysql_end bsrt (Some l) Hbs) as (p & E & _) end. congruence.
    - intros HE. destruct (HPl2 HE) as (p & P1 & P2 & _). exists p. auto. }
  split; [exact HIts|]. split; [exists w3; split; [exact HCat3|rewrite HP; exact HR]|].
  assert (HVars : Forall has_columns vars) by exact (given_columns _ _ EV).
  assert (HEx : when_some (fun er' => Forall (fun r => has_columns (ir_target r)) (er_results er')) er).
  { destruct runs; [|subst er; exact I]. destruct EX as (evs & w4 & er' & -> & HRun).
    destruct (examination_results_faithful _ _ _ _ _ _ _ _ _ HRun) as [HM _]. cbn [when_some].
    apply (proj1 (Forall_map ir_target has_columns (er_results er'))). rewrite HM. destruct vars; [|exact HVars].
    apply Forall_forall. intros x Hx. apply filter_In in Hx. rewrite Forall_forall in HCols. apply HCols, Hx. }
  split.
  { destruct runs; [|exact EX]. destruct EX as (evs & w4 & er' & -> & HRun).
    destruct (examination_results_faithful _ _ _ _ _ _ _ _ _ HRun) as [HM _].
    exists vars. eexists. exists er'. split; [reflexivity|]. split; [exact EV|]. split; [|exact HM].
    destruct vars as [|v vs]; [right|left; split; [discriminate|reflexivity]]. split; [reflexivity|]. intros it. rewrite filter_In, is_safe_exact. reflexivity. }
  intros HNe.
  assert (HE2 : when_some examined er) by (destruct er as [er'|]; [|exact I]; split; [now apply HNe|exact HEx]).
  exact (suggest_report_cards format psrt checked SubMysql runs output query [] None [] query (plan_view mysql_vm plan) [] its er
    Hps HCols HE2 (conj (mysql_plan_fits plan) eq_refl)).
Qed.

(** ** C100 *)
(** Statements are executed only with the option to examine: the query itself, and the
    creation and removal of indexes for the targets.  At most three questions, one report,
    at the place asked for, after all statements. *)
Theorem mysql_talk : forall env w tr w' r,
    mysql_main sv fold so ord ordf srt unix rnds runs texts query output low parse env w = (tr, w', r) ->
    (forall s, In (AExec s) tr -> runs = true /\ exists v targets, new_index_targets_from_texts texts = Ok v /\ targets_of my_reads v targets /\
       (s = query \/ exists n it, In it targets /\ (s = mysql_create_sql n it \/ s = mysql_drop_sql n it))) /\
    length (filter is_select tr) <= 3 /\
    (forall p b, In (AWrite p b) tr -> p = output /\ output <> [] /\ exists before, tr = before ++ [AWrite p b; AClose] /\ filter is_write before = []) /\
    (r = Ok tt -> output <> [] -> exists b w1, In (AWrite output b) tr /\ snd (on_write sv w1 output b) = None).
Proof.
  intros env w tr w' r H. destruct (mysql_conversation _ _ _ _ _ H) as [(-> & HF & _)|(c & conn & _ & _ & [(-> & HF)|(inner & -> & HC)])].
  - split; [intros s []|]. split; [cbn; lia|]. split; [intros p b []|]. intros ->. elim (HF tt eq_refl).
  - split; [intros s [Hx|[]]; discriminate|]. split; [cbn; lia|]. split; [intros p b [Hx|[]]; discriminate|]. intros ->. elim (HF tt eq_refl).
  - split; [|split; [|split]].
    + intros s [Hx|Hx]; [discriminate|]. apply in_app_or in Hx. destruct Hx as [Hx|[Hx|[]]]; [|discriminate]. exact (talk_executes _ _ _ _ _ _ _ _ _ _ _ _ _ HC Hx).
    + cbn [filter is_select]. rewrite filter_app, app_length. cbn [filter is_select length]. rewrite Nat.add_0_r. exact (talk_questions _ _ _ _ _ _ _ _ _ _ _ _ HC).
    + intros p b [Hx|Hx]; [discriminate|]. apply in_app_or in Hx. destruct Hx as [Hx|[Hx|[]]]; [|discriminate].
      destruct (talk_writes _ _ _ _ _ _ _ _ _ _ _ _ _ _ HC Hx) as (E1 & E2 & before & -> & HB). split; [exact E1|]. split; [exact E2|].
      exists (AOpen conn :: before). split; [rewrite <- app_assoc; reflexivity|exact HB].
    + intros -> HO. destruct (talk_success _ _ _ _ _ _ _ _ _ _ _ HC) as (v & rq & rq' & exam & _ & _ & _ & _ & HX).
      destruct output as [|oc o] eqn:EO; [congruence|]. destruct HX as (b & -> & w1 & HW). exists b, w1. split; [|exact HW]. right. apply in_or_app. left. do 3 right. apply in_or_app. right. now left.
Qed.

(** ** C101 *)
(** A query the tool cannot make one statement of is refused; but by then it has run, as it
    is, behind the words EXPLAIN ANALYZE, whatever its text. *)
Theorem mysql_refused_has_run : forall env w c vars w0 tr w' r,
    ConnText.my_config_from_env env = Ok c -> new_index_targets_from_texts texts = Ok vars ->
    on_open sv w (ConnText.to_dsn c) = (w0, None) -> (forall root rest, parse query <> Ok (root :: rest)) ->
    mysql_main sv fold so ord ordf srt unix rnds runs texts query output low parse env w = (tr, w', r) ->
    failed r /\ tr = [AOpen (ConnText.to_dsn c); ASelect (lit "EXPLAIN ANALYZE FORMAT=TREE " ++ query, []); AClose] /\
    w' = on_close sv (fst (on_select sv w0 (lit "EXPLAIN ANALYZE FORMAT=TREE " ++ query, []))).
Proof.
  intros env w c vars w0 tr w' r HCf HV HOp HN H. unfold mysql_main in H. rewrite HCf, give_ok in H. unfold with_connection in H. rewrite HOp in H.
  unfold mysql_suggest_cmd in H. rewrite HV in H. rewrite give_ok in H.
  match type of H with context [andthen ?p ?f w0] => destruct (andthen p f w0) as [[inner w2] r2] eqn:EA end.
  injection H as <- <- <-. apply andthen_inv in EA. destruct EA as (tr1 & w1 & r1 & E1 & EA).
  assert (EW : tr1 = [ASelect (lit "EXPLAIN ANALYZE FORMAT=TREE " ++ query, [])] /\ w1 = fst (on_select sv w0 (lit "EXPLAIN ANALYZE FORMAT=TREE " ++ query, []))).
  { unfold mysql_explain in E1. change (lit "EXPLAIN ANALYZE FORMAT=TREE ") with explain_mysql. remember ((explain_mysql ++ query, []) : request) as rq eqn:Erq.
    apply andthen_inv in E1. destruct E1 as (tr2 & w3 & r3 & E3 & E1). rewrite select_as_run in E3. injection E3 as <- <- Er.
    destruct r3 as [l|m|]; [|destruct E1 as (-> & -> & _); auto|destruct E1 as (-> & -> & _); auto].
    destruct E1 as (tr4 & E1 & ->). unfold give in E1. injection E1 as <- <- _. auto. }
  destruct EW as [-> <-].
  destruct r1 as [plan|m|]; [|destruct EA as (-> & -> & ->); split; [intros x; discriminate|auto]|destruct EA as (-> & -> & ->); split; [intros x; discriminate|auto]].
  destruct EA as (tr2 & EA & ->). apply andthen_inv in EA. destruct EA as (tr3 & w3 & r3 & E3 & EA).
  destruct (mysql_suggest_steps sv fold so ord ordf srt query Ho Hof Hs low parse _ _ _ _ _ E3) as (w4 & _ & HSt).
  destruct HSt as [(-> & -> & HF)|(tables & rq1 & (root & rst & HP & _) & _)]; [|elim (HN root rst HP)].
  destruct r3 as [its|m|]; [elim (HF its eq_refl)| |]; destruct EA as (-> & -> & ->); (split; [intros x; discriminate|auto]).
Qed.
End My.

(** A server: questions about the catalog are answered from [my_cat]; everything else runs
    and is counted. *)
Definition ex_world : world nat := {|
  on_open := fun n _ => (n, None);
  on_select := fun n rq =>
    match parse_sql (fst rq) with
    | Some _ => (n, run_server my_db rq)
    | None => (S n, Ok [[(lit "EXPLAIN", VText (lit "-> Nested loop" ++ [10%N] ++ lit "    -> Scan"))]])
    end;
  on_exec := fun n _ => (S n, inl (Z.of_nat n));
  on_write := fun n _ _ => (n, None);
  on_close := fun n => n |}.
Definition ex_env (k : gostring) : gostring :=
  if seqb k (lit "DB_USERNAME") then lit "root" else if seqb k (lit "DB_DATABASE") then db else if seqb k (lit "DB_ADDRESS") then lit "h:3306" else [].
Definition ex_query := lit "select ...".
Definition ex_run (runs : bool) (texts : list gostring) (output : gostring) :=
  mysql_main ex_world ascii_fold (fun l => l) id_ord id_ord isort 7 (fun _ => 0%N) runs texts ex_query output ascii_low (fun _ => Ok [ex_stmt]) ex_env 0.
Definition short (a : act) : gostring :=
  match a with
  | AOpen c => lit "open " ++ c
  | ASelect (t, args) => match args with [] => t | _ => lit "ask about " ++ join (lit ",") args end
  | AExec s => s
  | APost p _ => lit "post " ++ p
  | AWrite p _ => lit "write " ++ p
  | AClose => lit "close"
  end.
Example mysql_conversation_ex :
  map short (fst (fst (ex_run true [lit "users:email"] (lit "out.html")))) =
  [lit "open root@tcp(h:3306)/db"; lit "EXPLAIN ANALYZE FORMAT=TREE select ..."; lit "ask about db,users,tasks"; lit "ask about db,tasks,users";
   ex_query; lit "ALTER TABLE `users` ADD INDEX `7_email` (`email`)"; ex_query; lit "ALTER TABLE `users` DROP INDEX `7_email`"; lit "write out.html"; lit "close"] /\
  snd (ex_run true [lit "users:email"] (lit "out.html")) = Ok tt /\
  map short (fst (fst (ex_run false [] []))) =
  [lit "open root@tcp(h:3306)/db"; lit "EXPLAIN ANALYZE FORMAT=TREE select ..."; lit "ask about db,users,tasks"; lit "ask about db,tasks,users"; lit "close"].
Proof. split; [|split]; vm_compute; reflexivity. Qed.
Print Assumptions mysql_conversation.
Print Assumptions mysql_talk.
Lemma ex_world_serves : my_serves ex_world bytewise (fun _ => my_cat).
Proof.
  split; [intros _; apply my_cat_sound|]. split; [|reflexivity]. intros n text args rows q H HQ. cbn [on_select ex_world fst] in H. rewrite HQ in H.
  exact (run_server_answers my_db text args rows q H HQ).
Qed.
Example mysql_report_ex : my_serves ex_world bytewise (fun _ => my_cat) /\ (forall tables, my_names_apart bytewise my_cat db tables) /\
  is_sort faster (LoadChartsProperties.sort_by faster) /\ is_sort bar_less (@sort_bars vm_node) /\
  exists tr w' b shown,
    mysql_suggest_cmd ex_world ascii_fold (fun l => l) id_ord id_ord isort 7 (fun _ => 0%N) true [lit "users:email"] ex_query (lit "out.html")
      ascii_low (fun _ => Ok [ex_stmt]) db 0 = (tr, w', Ok tt) /\
    last tr AClose = AWrite (lit "out.html") b /\ browse (fun q => Ok q) (LoadChartsProperties.sort_by faster) [] b = Ok shown /\ length shown = 5.
Proof.
  split; [apply ex_world_serves|]. split; [apply bytewise_apart|]. split; [apply faster_sort|]. split; [apply sort_bars_ok|].
  do 4 eexists. split; [vm_compute; reflexivity|]. split; [cbn [last]; reflexivity|]. split; vm_compute; reflexivity.
Qed.
Print Assumptions mysql_report.
Example mysql_refused_has_run_ex : exists tr w',
  mysql_main ex_world ascii_fold (fun l => l) id_ord id_ord isort 7 (fun _ => 0%N) true [] (lit "nonsense") [] ascii_low (fun _ => Err (lit "syntax")) ex_env 0
  = (tr, w', Err (lit "syntax")) /\ w' = 1.
Proof. do 2 eexists. split; [vm_compute; reflexivity|reflexivity]. Qed.
Print Assumptions mysql_refused_has_run.
