(** C105 to C108: what the Hasura command reports, how it reads answers, and the variables
    it sends. *)
From Coq Require Import String List NArith ZArith QArith Bool Lia Arith Sorting Permutation.
From Verif Require Import Base IndexText IndexTextSpec IndexTextProofs IndexTextProperties IndexBuild IndexBuildSpec TableFields BuildSpec BuildProofs BuildProperties
  Existing ExistingSpec ExistingProofs ExistingProperties
  PgAst PgCollect PgSpec PgProofs PgRegionProofs PgWalkSpec PgProperties
  ExplainTree ExplainSpec PgExplainSpec PlanView PlanViewSpec PlanViewProofs PlanViewProperties SqlServer MetaSql MetaSqlProofs Catalog CatalogSpec CatalogReadProofs CatalogPgProperties SqlRun
  Examiner ExaminerProperties SuggestCmd CommandText Json JsonProofs HandOver HandOverSpec HandOverProofs HandOverProperties Program ProgramSpec ProgramProofs
  HasuraProgram HasuraProgramSpec HasuraProgramProofs HasuraProgramProperties.
From Verif Require PgExplain PgExplainProofs ExplainProperties PgArray ConnText MysqlCollect MysqlProperties LoadChartsProperties Hasura HasuraSpec HasuraProofs HasuraProperties ProgramPgProperties.
Import ListNotations.
Local Open Scope string_scope.
Local Open Scope list_scope.
Local Open Scope nat_scope.

(** ** C108: reading answers *)
Lemma named_refl : forall kfold k, named kfold k k = true.
Proof. intros. unfold named. now apply seqb_eq. Qed.
Lemma named_length : forall kfold a b, length a <> length b -> named kfold a b = false.
Proof.
  intros kfold a b H. unfold named. destruct (seqb (map kfold a) (map kfold b)) eqn:E; [|reflexivity].
  apply seqb_eq in E. apply (f_equal (@length _)) in E. rewrite !map_length in E. congruence.
Qed.
Lemma each_text : forall l, as_each as_text (map JStr l) = Ok l.
Proof. induction l as [|x l IH]; [reflexivity|]. cbn [map as_each as_text obind]. rewrite IH. reflexivity. Qed.
Lemma each_row : forall rows, as_each (as_list as_text) (map (fun r => JArr (map JStr r)) rows) = Ok rows.
Proof. induction rows as [|x l IH]; [reflexivity|]. cbn [map as_each as_list]. rewrite each_text. cbn [obind]. rewrite IH. reflexivity. Qed.
(** The shape of Hasura's answers *)
Definition explain_answer (field : gostring) (sql : gostring) (plan : list gostring) : jv :=
  JObj [(lit "field", JStr field); (lit "sql", JStr sql); (lit "plan", JArr (map JStr plan))].
Definition sql_answer (kind : gostring) (rows : list (list gostring)) : jv :=
  JObj [(lit "result_type", JStr kind); (lit "result", JArr (map (fun r => JArr (map JStr r)) rows))].
Lemma read_explain_answer : forall kfold f s p, as_explanation kfold (explain_answer f s p) = Ok (Some (mk_expl f p s)).
Proof.
  intros kfold f s p. unfold explain_answer, as_explanation. cbn [read_explanation].
  rewrite named_refl. cbn [as_text obind]. rewrite (named_length kfold (lit "field") (lit "sql")), (named_length kfold (lit "plan") (lit "sql")) by discriminate. rewrite named_refl.
  cbn [as_text obind]. rewrite (named_length kfold (lit "field") (lit "plan")) by discriminate. rewrite named_refl. cbn [as_list]. rewrite each_text. reflexivity.
Qed.
Lemma read_sql_answer : forall kfold kind rows, as_result kfold (sql_answer kind rows) = Ok rows.
Proof.
  intros kfold kind rows. unfold sql_answer, as_result. cbn [read_result]. rewrite named_refl. cbn [as_text obind].
  rewrite (named_length kfold (lit "result_type") (lit "result")) by discriminate. rewrite named_refl. cbn [as_list]. rewrite each_row. reflexivity.
Qed.
Lemma each_explanation : forall kfold l, as_each (as_explanation kfold) (map (fun x => explain_answer (fst (fst x)) (snd (fst x)) (snd x)) l) =
    Ok (map (fun x => Some (mk_expl (fst (fst x)) (snd x) (snd (fst x)))) l).
Proof.
  intros kfold l. induction l as [|x l IH]; [reflexivity|]. cbn [map as_each]. rewrite read_explain_answer. cbn [obind]. rewrite IH. reflexivity.
Qed.
Section Answers.
Context {W : Type} (hv : hworld W) (unmarshal : gostring -> option jv) (kfold : rune -> rune)
  (norm : gostring -> gostring) (fold : rune -> rune) (so : list gostring -> list gostring)
  (ord : order gostring) (ordf : order ifield) (srt : list index_target_table -> list index_target_table)
  (unix : N) (rnds : nat -> N) (scan : gostring -> outcome (list gostring)) (parse : gostring -> outcome (list node))
  (runs : bool) (texts : list gostring) (query variables output : gostring) (v : option (list (gostring * jv))).
Let command := hasura_suggest_cmd hv unmarshal kfold fold so ord ordf srt unix rnds norm parse scan runs texts query variables output v.
Definition explain_body : jv := JObj [(lit "query", JObj [(lit "query", JStr query); (lit "variables", match v with None => JNull | Some l => JObj l end)]); (lit "user", JNull)].
(** A query of several fields, or none, is refused after one request, whose number of
    queries is told; a list with nothing for the query crashes. *)
Theorem hasura_one_query : forall w w1 ms text answers,
    h_post hv w (lit "/v1/graphql/explain") explain_body = (w1, ms, Answer 200 text) -> unmarshal text = Some (JArr (map (fun x => explain_answer (fst (fst x)) (snd (fst x)) (snd x)) answers)) ->
    length answers <> 1 ->
    command w = ([APost (lit "/v1/graphql/explain") explain_body], w1,
                 Err (lit "not supporting multiple gql executing multiple queries. " ++ Dec.dec_of_N (N.of_nat (length answers)) ++ lit " query will be run")).
Proof.
  intros w w1 ms text answers HP HU HL. unfold command, hasura_suggest_cmd, explain_gql, andthen. rewrite post_run.
  change explain_path with (lit "/v1/graphql/explain"). change (explain_json query v) with explain_body. unfold after. rewrite HP. cbn [fst snd posted]. change (200 =? 200)%N with true. cbn [N.eqb]. rewrite HU. cbn [as_list].
  rewrite each_explanation. unfold give. cbn [app]. destruct answers as [|x [|y l]]; [reflexivity|cbn in HL; lia|]. cbn [map].
  unfold many_message. cbn [length]. rewrite map_length. reflexivity.
Qed.
Theorem hasura_null_crashes : forall w w1 ms text,
    h_post hv w (lit "/v1/graphql/explain") explain_body = (w1, ms, Answer 200 text) -> unmarshal text = Some (JArr [JNull]) ->
    command w = ([APost (lit "/v1/graphql/explain") explain_body], w1, Panic).
Proof.
  intros w w1 ms text HP HU. unfold command, hasura_suggest_cmd, explain_gql, andthen. rewrite post_run.
  change explain_path with (lit "/v1/graphql/explain"). change (explain_json query v) with explain_body. unfold after. rewrite HP. cbn [fst snd posted]. change (200 =? 200)%N with true. cbn [N.eqb]. rewrite HU. reflexivity.
Qed.
(** Any status but 200 is an error that shows the status and the answer. *)
Theorem hasura_status_reported : forall w w1 ms status text,
    h_post hv w (lit "/v1/graphql/explain") explain_body = (w1, ms, Answer status text) -> status <> 200%N ->
    command w = ([APost (lit "/v1/graphql/explain") explain_body], w1,
                 Err (lit "Request to Hasura failed (Status=" ++ Dec.dec_of_N status ++ lit "): " ++ text)).
Proof.
  intros w w1 ms status text HP HS. unfold command, hasura_suggest_cmd, explain_gql, andthen. rewrite post_run.
  change explain_path with (lit "/v1/graphql/explain"). change (explain_json query v) with explain_body. unfold after. rewrite HP. cbn [fst snd posted].
  rewrite (proj2 (N.eqb_neq _ _) HS). reflexivity.
Qed.

(** ** C106: what counts as a run of the query *)
(** Any answer with status 200 is a successful run, whatever it says. *)
Theorem hasura_times_any_answer : forall w,
    db_execute (hasura_examiner hv unmarshal kfold query v) w =
    let '(w1, ms, a) := h_post hv w (lit "/v1/graphql") (JObj [(lit "query", JStr query); (lit "variables", match v with None => JNull | Some l => JObj l end)]) in
    (w1, match a with
         | Answer 200 _ => inl ms
         | Answer status text => inr (lit "query for GraphQL failed: Request to Hasura failed (Status=" ++ Dec.dec_of_N status ++ lit "): " ++ text)
         | NoAnswer m => inr (lit "query for GraphQL failed: failed to execute http request to hasura: " ++ m)
         end).
Proof.
  intros w. cbn [db_execute hasura_examiner]. change graphql_path with (lit "/v1/graphql").
  change (gql_json query v) with (JObj [(lit "query", JStr query); (lit "variables", match v with None => JNull | Some l => JObj l end)]).
  destruct (h_post hv w _ _) as [[w1 ms] [m|status text]]; [reflexivity|]. cbn [posted].
  destruct (N.eqb_spec status 200) as [->|HN]; [reflexivity|].
  assert (HM : forall A (x : A) y, (match status with 200%N => x | _ => y end) = y).
  { intros A x y. destruct status as [|p]; [reflexivity|]. repeat (try reflexivity; destruct p as [p|p|]; try reflexivity). congruence. }
  now rewrite HM.
Qed.
End Answers.
(** A server that can run no query, and says so with status 200 as GraphQL servers do *)
Definition failing_hworld : hworld nat := {|
  h_post := fun n path body =>
    let '(w1, ms, a) := h_post ex_hworld n path body in
    (w1, ms, match hear (APost path body) with
             | HQuery _ _ => Answer 200 (lit "{""errors"":[{""message"":""database query error""}]}")
             | _ => a
             end);
  h_write := h_write ex_hworld |}.
(** "Only a query that ran is timed" is false. *)
Theorem hasura_failed_query_timed_refuted : exists tr w' b er,
    hasura_main failing_hworld ex_answers ascii_fold ascii_fold (fun l => l) id_ord id_ord isort 7 (fun _ => 0%N) low (fun _ => Ok [ex_stmt]) PgArray.array_in
      (fun q => Some q) (fun _ => Ok tt) ex_env true [lit "users:email"] (lit "query { users { id } }") (lit "{}") (lit "out.html") 0 = (tr, w', Ok tt) /\
    last tr AClose = AWrite (lit "out.html") b /\
    match b with BoHasura d => sd_result d | _ => None end = Some er /\
    er_original er = 3%Z /\ map (fun r => (it_table (ir_target r), ir_millis r)) (er_results er) = [(lit "users", 5%Z)].
Proof.
  eexists _, _, _, _. split; [vm_compute; reflexivity|]. split; [cbn [last]; reflexivity|]. split; [reflexivity|]. split; vm_compute; reflexivity.
Qed.

(** ** The plan *)
(** Of a plan without summary, every node but the last is shown. *)
Theorem hasura_plan_shown : forall bsrt lines t s, is_sort bar_less bsrt -> lines <> [] -> Forall (fun l => ~ summary_line l) lines ->
    PgExplain.build_explain lines = Ok (t, s) ->
    s = [] /\
    exists groups lost, cut_into lines (groups ++ [lost]) /\ lost <> [] /\
      (groups = [] -> plan_view pg_vm t = None) /\
      (groups <> [] -> exists p, plan_page cost_end bsrt (plan_view pg_vm t) = Ok (Some p) /\ pp_texts p = map (join [Base.nl]) groups).
Proof.
  intros bsrt lines t s HS HN HF HB.
  destruct (ExplainProperties.pg_groups_without_summary lines HN HF) as (groups & lost & HC & HL & EG).
  apply ExplainProperties.pg_explain_exact in HB. rewrite EG in HB. cbn [fst snd] in HB. destruct HB as (_ & Es & HG & _).
  split; [exact Es|]. exists groups, lost. split; [exact HC|]. split; [exact HL|].
  assert (HT : map (fun v => join [Base.nl] (PgExplain.rn_lines (PgExplain.tn_node v))) (flat_map preorder (t_children t)) = map (join [Base.nl]) groups).
  { clear - HG. induction HG as [|g v gs vs (sp & E & _) HG IH]; [reflexivity|]. cbn [map]. f_equal; auto.
    f_equal. eapply parse_node_lines; eauto. }
  unfold plan_view. destruct (t_children t) as [|c cs] eqn:EC.
  - cbn in HT. destruct groups; [|discriminate]. split; [reflexivity|congruence].
  - rewrite <- EC in *. split.
    + intros ->. cbn in HT. rewrite EC in HT. cbn [flat_map] in HT. destruct c. discriminate HT.
    + intros _. destruct (plan_page_total cost_end bsrt (Some (map (node_view pg_vm) (t_children t))) HS) as (p & E & H1 & H2).
      rewrite forest_view_preorder, map_map in H1. exists p. split; [exact E|]. rewrite H1. exact HT.
Qed.
Example hasura_plan_shown_ex : exists t p,
  PgExplain.build_explain [lit "Hash Join  (cost=1.00..2.50 rows=3 width=8)"; lit "  Hash Cond: (a.id = b.id)";
                           lit "  ->  Seq Scan on users  (cost=0.00..1.50 rows=3 width=8)"] = Ok (t, []) /\
  plan_page cost_end sort_bars (plan_view pg_vm t) = Ok (Some p) /\
  pp_texts p = [lit "Hash Join  (cost=1.00..2.50 rows=3 width=8)" ++ [Base.nl] ++ lit "  Hash Cond: (a.id = b.id)"].
Proof. do 2 eexists. split; [vm_compute; reflexivity|]. split; vm_compute; reflexivity. Qed.

(** ** C105 *)
Section Report.
Context {W : Type} (hv : hworld W) (unmarshal : gostring -> option jv) (kfold : rune -> rune)
  (norm : gostring -> gostring) (fold : rune -> rune) (so : list gostring -> list gostring)
  (ord : order gostring) (ordf : order ifield) (srt : list index_target_table -> list index_target_table)
  (unix : N) (rnds : nat -> N) (parse : gostring -> outcome (list node)).
Context (Hso : forall l, Permutation (so l) l) (Ho : is_order ord) (Hof : is_order ordf) (Hs : is_sort itt_less srt).
Context (runs : bool) (texts : list gostring) (query variables output : gostring) (v : option (list (gostring * jv))).

(** Hasura before a PostgreSQL with a catalog: SELECTs are answered from it, as texts below
    titles, in JSON; read-only SQL leaves it as it is. *)
Definition hasura_serves (reserved : gostring -> bool) (coll : gostring -> gostring -> comparison) (cat : W -> pg_catalog) : Prop :=
  (forall w, pg_sound (cat w)) /\
  (forall w body sql read_only q w1 ms text, hear (APost (lit "/v2/query") body) = HSql sql read_only -> parse_sql sql = Some q ->
     h_post hv w (lit "/v2/query") body = (w1, ms, Answer 200 text) ->
     exists kind ans titles, answers (pg_database reserved coll (cat w)) [] q ans /\
       unmarshal text = Some (sql_answer kind (titles :: map (map (fun c => cell_text (snd c))) ans))) /\
  (forall w body sql, hear (APost (lit "/v2/query") body) = HSql sql true -> cat (fst (fst (h_post hv w (lit "/v2/query") body))) = cat w).
Lemma serves_answers : forall reserved coll cat w, hasura_serves reserved coll cat ->
    hasura_answers_from (pg_database reserved coll (cat w)) (sql_at hv unmarshal kfold w).
Proof.
  intros reserved coll cat w (_ & HA & _) rq rows q H HQ. unfold sql_at in H.
  destruct (h_post hv w (lit "/v2/query") (run_sql_json rq)) as [[w1 ms] a] eqn:EP. cbn [snd] in H.
  destruct a as [m|status text]; [discriminate|]. cbn [posted] in H. destruct (N.eqb_spec status 200) as [->|]; [|discriminate]. cbn [obind] in H.
  assert (HH : exists ro, hear (APost (lit "/v2/query") (run_sql_json rq)) = HSql (Hasura.rs_sql rq) ro).
  { destruct rq as [s [[]|]]; eexists; reflexivity. }
  destruct HH as (ro & HH). destruct (HA w _ _ _ _ _ _ _ HH HQ EP) as (kind & ans & titles & H1 & H2).
  exists ans, titles. split; [exact H1|]. unfold result_of in H. rewrite H2, read_sql_answer in H. now injection H as <-.
Qed.
Lemma two_answers : forall d s1 s2, hasura_answers_from d s1 -> hasura_answers_from d s2 -> hasura_answers_from d (two s1 s2).
Proof. intros d s1 s2 H1 H2 rq rows q H HQ. unfold two in H. destruct (N.eqb _ _); eauto. Qed.

Theorem hasura_report : forall reserved coll cat w tr w' format psrt bsrt checked,
    hasura_serves reserved coll cat -> (forall a b, coll a b = Eq <-> a = b) ->
    (forall sql root, parse sql = Ok [root] -> supported norm public root /\ distinct root) ->
    is_sort faster psrt -> is_sort bar_less bsrt -> output <> [] -> when_some (fun l => ordinary (JObj l)) v ->
    hasura_suggest_cmd hv unmarshal kfold fold so ord ordf srt unix rnds norm parse PgArray.array_in runs texts query variables output v w = (tr, w', Ok tt) ->
    exists before b w1 ms text j sql lines nodes summary root its er,
      tr = before ++ [AWrite output b] /\
      h_post hv w (lit "/v1/graphql/explain") (explain_body query v) = (w1, ms, Answer 200 text) /\ unmarshal text = Some j /\
      (forall f s l, j = JArr [explain_answer f s l] -> sql = s /\ lines = l) /\
      (lines <> [] -> Forall (fun l => ~ summary_line l) lines -> summary = [] /\
         exists groups lost, cut_into lines (groups ++ [lost]) /\ lost <> [] /\ (groups = [] -> nodes = None) /\
           (groups <> [] -> exists p, plan_page cost_end bsrt nodes = Ok (Some p) /\ pp_texts p = map (join [Base.nl]) groups)) /\
      parse sql = Ok [root] /\ Forall (ProgramPgProperties.pg_worth norm fold reserved (cat w1) public root) its /\
      (exists w2, cat w2 = cat w1 /\
         Hasura.hasura_suggest norm fold so ord ordf srt PgArray.array_in (two (sql_at hv unmarshal kfold w1) (sql_at hv unmarshal kfold w2)) (parse sql) = Ok its) /\
      (if runs then exists vars targets er', er = Some er' /\ new_index_targets_from_texts texts = Ok vars /\
         (vars <> [] /\ targets = vars \/ vars = [] /\ forall it, In it targets <-> In it its /\ identifier (it_table it) /\ Forall (Forall word_char) (it_cols it)) /\
         map ir_target (er_results er') = targets
       else er = None) /\
      (forall q, format sql = Ok q -> (forall er', er = Some er' -> er_results er' <> []) ->
       exists exam, browse format psrt checked b =
           Ok (gql_cards SubHasura query v ++ sql_cards SubHasura q ++ plan_cards SubHasura nodes summary ++
               suggestion_cards SubHasura its er
                 (build_command_text SubHasura (still_checked checked its) (report_options SubHasura runs output query variables)) ++ exam) /\
         is_exam_card SubHasura er exam).
Proof.
  intros reserved coll cat w tr w' format psrt bsrt checked HSv HC HSu Hps Hbs HO HOrd H.
  unfold hasura_suggest_cmd in H. apply andthen_inv in H. destruct H as (tr1 & w1 & r1 & H1 & H).
  destruct r1 as [res|m|]; [|destruct H as (_ & _ & H); discriminate|destruct H as (_ & _ & H); discriminate].
  destruct H as (tr2 & H & ->).
  destruct res as [|[e|] [|x res]]; try (unfold give in H; discriminate).
  (* the explanation *)
  unfold explain_gql in H1. apply andthen_inv in H1. destruct H1 as (tr3 & w3 & r3 & H3 & H1). rewrite post_run in H3. injection H3 as <- <- Er.
  destruct r3 as [text|m|]; [|destruct H1 as (_ & _ & H1); discriminate|destruct H1 as (_ & _ & H1); discriminate].
  destruct H1 as (tr4 & H1 & ->). unfold give in H1. injection H1 as <- Ew EJ.
  unfold after in Ew. change explain_path with (lit "/v1/graphql/explain") in *. change (explain_json query v) with (explain_body query v) in *.
  destruct (h_post hv w (lit "/v1/graphql/explain") (explain_body query v)) as [[w1' ms] a] eqn:EP. cbn [fst snd] in Ew, Er. subst w1'.
  destruct a as [m|status text']; [discriminate|]. cbn [posted] in Er. destruct (N.eqb_spec status 200) as [->|]; [|discriminate]. injection Er as ->.
  destruct (unmarshal text) as [j|] eqn:EU; [|discriminate].
  assert (EJ' : as_list (as_explanation kfold) j = Ok [Some e]) by (destruct (as_list (as_explanation kfold) j); [exact EJ|discriminate|discriminate]). clear EJ.
  (* the plan *)
  destruct (PgExplain.build_explain (ex_plan e)) as [[t s]|m|] eqn:EB; [rewrite give_ok in H|rewrite give_err in H; discriminate|rewrite give_panic in H; discriminate].
  (* the suggestions *)
  apply andthen_inv in H. destruct H as (tr5 & w5 & r5 & H5 & H).
  destruct r5 as [its|m|]; [|destruct H as (_ & _ & H); discriminate|destruct H as (_ & _ & H); discriminate].
  destruct H as (tr6 & H & ->).
  destruct (hasura_suggest_steps hv unmarshal kfold fold so ord ordf srt norm parse PgArray.array_in Ho Hof Hs _ _ _ _ _ H5) as (w2 & HR & HSt).
  destruct HSt as [(_ & _ & HF)|(tables & q1 & (root & tn & HP & HT0 & HT) & Eq1 & Ew2 & _)]; [elim (HF _ eq_refl)|].
  assert (HCat : cat w2 = cat w1).
  { destruct HSv as (_ & _ & HK). subst w2. unfold answered, after. change query_path with (lit "/v2/query"). exact (HK w1 _ q1 (hear_question q1)). }
  symmetry in HR. rewrite HP in HR. destruct (HSu _ _ HP) as [HSup HDis].
  pose proof (serves_answers _ _ _ w1 HSv) as HA1. pose proof (serves_answers _ _ _ w2 HSv) as HA2. rewrite HCat in HA2.
  assert (HIts : Forall (ProgramPgProperties.pg_worth norm fold reserved (cat w1) public root) its).
  { apply Forall_forall. exact (hasura_suggestions_against_catalog norm fold so ord ordf srt reserved coll (cat w1) _ root its Hso Ho Hof Hs HC (proj1 HSv w1)
      (two_answers _ _ _ HA1 HA2) HSup HDis HR). }
  assert (HCols : Forall has_columns its) by (eapply Forall_impl; [|exact HIts]; intros it (_ & K & _); exact K).
  (* the end *)
  destruct (new_index_targets_from_texts texts) as [vars|m|] eqn:EV; [rewrite give_ok in H|rewrite give_err in H; discriminate|rewrite give_panic in H; discriminate].
  unfold conclude in H. apply andthen_inv in H. destruct H as (tr7 & w7 & r7 & H7 & H).
  destruct r7 as [er|m|]; [|destruct H as (_ & _ & H); discriminate|destruct H as (_ & _ & H); discriminate]. destruct H as (tr8 & H & ->).
  assert (EX : if runs then exists evs w8 er', er = Some er' /\
      Examiner.run (hasura_examiner hv unmarshal kfold query v) w5 unix rnds (match vars with [] => filter is_safe its | _ => vars end) = (evs, w8, Ok er')
    else er = None).
  { destruct runs.
    - apply andthen_inv in H7. destruct H7 as (tr9 & w9 & r9 & H9 & H7). unfold examine_with in H9.
      destruct (Examiner.run _ w5 unix rnds _) as [[evs w8] r8] eqn:ERun. injection H9 as <- <- <-.
      destruct r8 as [er'|m|]; [|destruct H7 as (_ & _ & H7); discriminate|destruct H7 as (_ & _ & H7); discriminate].
      destruct H7 as (tr10 & H10 & _). unfold give in H10. injection H10 as _ _ <-. exists evs, w8, er'. split; reflexivity.
    - unfold give in H7. injection H7 as _ _ <-. reflexivity. }
  destruct output as [|oc o] eqn:EOut; [congruence|]. rewrite <- EOut in *. cbn [on_write writer] in H.
  destruct (h_write hv w7 output _) as [w11 ee]. injection H as <- _ _.
  exists (APost (lit "/v1/graphql/explain") (explain_body query v) :: tr5 ++ tr7). eexists. exists w1, ms, text, j, (ex_sql e), (ex_plan e), (plan_view pg_vm t), s, root, its, er.
  split; [cbn [app]; rewrite <- !app_assoc; reflexivity|]. split; [reflexivity|]. split; [exact EU|]. split.
  { intros f s' l ->. cbn [as_list as_each] in EJ'. rewrite read_explain_answer in EJ'. cbn [obind] in EJ'. injection EJ' as <-. auto. }
  split.
  { intros HN HF. exact (hasura_plan_shown bsrt _ _ _ Hbs HN HF EB). }
  split; [exact HP|]. split; [exact HIts|]. split; [exists w2; split; [exact HCat|rewrite HP; exact HR]|].
  assert (HVars : Forall has_columns vars) by exact (given_columns _ _ EV).
  assert (HEx : when_some (fun er' => Forall (fun r => has_columns (ir_target r)) (er_results er')) er).
  { destruct runs; [|subst er; exact I]. destruct EX as (evs & w4 & er' & -> & HRun).
    destruct (examination_results_faithful _ _ _ _ _ _ _ _ _ HRun) as [HM _]. cbn [when_some].
    apply (proj1 (Forall_map ir_target has_columns (er_results er'))). rewrite HM. destruct vars; [|exact HVars].
    apply Forall_forall. intros x Hx. apply filter_In in Hx. rewrite Forall_forall in HCols. apply HCols, Hx. }
  split.
  { destruct runs; [|exact EX]. destruct EX as (evs & w4 & er' & -> & HRun).
    destruct (examination_results_faithful _ _ _ _ _ _ _ _ _ HRun) as [HM _].
    exists vars. eexists. exists er'. split; [reflexivity|]. split; [reflexivity|]. split; [|exact HM].
    destruct vars as [|v0 vs]; [right|left; split; [discriminate|reflexivity]]. split; [reflexivity|]. intros it. rewrite filter_In, is_safe_exact. reflexivity. }
  intros q HQ HNe.
  assert (HE2 : when_some examined er) by (destruct er as [er'|]; [|exact I]; split; [now apply HNe|exact HEx]).
  exact (suggest_report_cards format psrt checked SubHasura runs output query variables v (ex_sql e) q (plan_view pg_vm t) s its er
    Hps HCols HE2 (conj HQ HOrd)).
Qed.
End Report.

(** ** Examples *)
(** A world where every request gets the same answer *)
Definition one_answer (a : answer) : hworld nat := {| h_post := fun n _ _ => (S n, 0%Z, a); h_write := fun n _ _ => (n, None) |}.
Definition one_run (a : answer) (j : jv) :=
  hasura_suggest_cmd (one_answer a) (fun _ => Some j) ascii_fold ascii_fold (fun l => l) id_ord id_ord isort 7 (fun _ => 0%N) low (fun _ => Ok [ex_stmt]) PgArray.array_in
    false [] (lit "{a b}") (lit "{}") [] None 0.
Example hasura_one_query_ex :
  snd (one_run (Answer 200 []) (JArr [explain_answer (lit "a") (lit "SELECT 1") []; explain_answer (lit "b") (lit "SELECT 2") []])) =
  Err (lit "not supporting multiple gql executing multiple queries. 2 query will be run").
Proof. vm_compute. reflexivity. Qed.
Example hasura_null_crashes_ex : snd (one_run (Answer 200 []) (JArr [JNull])) = Panic.
Proof. vm_compute. reflexivity. Qed.
Example hasura_status_reported_ex : snd (one_run (Answer 401 (lit "access denied")) JNull) = Err (lit "Request to Hasura failed (Status=401): access denied").
Proof. vm_compute. reflexivity. Qed.
Example hasura_times_any_answer_ex :
  db_execute (hasura_examiner (one_answer (Answer 200 (lit "{""errors"":[]}"))) (fun _ => None) ascii_fold (lit "{a}") None) 4 = (5, inl 0%Z) /\
  db_execute (hasura_examiner (one_answer (Answer 503 (lit "down"))) (fun _ => None) ascii_fold (lit "{a}") None) 4 =
    (5, inr (lit "query for GraphQL failed: Request to Hasura failed (Status=503): down")).
Proof. split; vm_compute; reflexivity. Qed.
(** A Hasura before [pg_db]; an SQL text stands for its answer *)
Definition report_answers (text : gostring) : option jv :=
  match parse_sql text with
  | Some q => match SqlRun.run pg_db [] q with
              | Some rows => Some (sql_answer (lit "TuplesOk") (map snd (q_items q) :: map (map (fun c => cell_text (snd c))) rows))
              | None => None
              end
  | None => ex_answers text
  end.
Definition report_hworld : hworld nat := {|
  h_post := fun n path body =>
    (S n, Z.of_nat n,
     match hear (APost path body) with
     | HExplain _ _ => Answer 200 (lit "plan")
     | HSql q _ => match parse_sql q with
                   | Some q' => match SqlRun.run pg_db [] q' with Some _ => Answer 200 q | None => Answer 400 (lit "error") end
                   | None => Answer 200 (lit "done")
                   end
     | HQuery _ _ => Answer 200 (lit "{""data"":{}}")
     | _ => Answer 404 (lit "resource does not exist")
     end);
  h_write := fun n _ _ => (n, None) |}.
Lemma report_serves : hasura_serves report_hworld report_answers no_words bytewise (fun _ => pg_cat).
Proof.
  split; [intros _; apply pg_cat_sound|]. split; [|reflexivity]. intros n body sql ro q w1 ms text HH HQ H.
  cbn [h_post report_hworld] in H. rewrite HH, HQ in H. destruct (SqlRun.run pg_db [] q) as [rows|] eqn:ER; [|discriminate]. injection H as _ _ <-.
  exists (lit "TuplesOk"), rows, (map snd (q_items q)). split; [exact (run_answers _ _ _ _ ER)|]. unfold report_answers. now rewrite HQ, ER.
Qed.
Example hasura_report_ex : hasura_serves report_hworld report_answers no_words bytewise (fun _ => pg_cat) /\ supported low public ex_stmt /\ distinct ex_stmt /\
  is_sort faster (LoadChartsProperties.sort_by faster) /\ is_sort bar_less (@sort_bars vm_node) /\
  exists tr w' b shown,
    hasura_suggest_cmd report_hworld report_answers ascii_fold ascii_fold (fun l => l) id_ord id_ord isort 7 (fun _ => 0%N) low (fun _ => Ok [ex_stmt]) PgArray.array_in
      true [lit "users:email"] (lit "query { users { id } }") (lit "{}") (lit "out.html") (Some []) 0 = (tr, w', Ok tt) /\
    last tr AClose = AWrite (lit "out.html") b /\ browse (fun q => Ok q) (LoadChartsProperties.sort_by faster) [] b = Ok shown /\ length shown = 6.
Proof.
  split; [apply report_serves|]. split; [apply ex_supported|]. split; [apply ex_distinct|]. split; [apply faster_sort|]. split; [apply sort_bars_ok|].
  do 4 eexists. split; [vm_compute; reflexivity|]. split; [cbn [last]; reflexivity|]. split; vm_compute; reflexivity.
Qed.
Print Assumptions hasura_one_query.
Print Assumptions hasura_null_crashes.
Print Assumptions hasura_status_reported.
Print Assumptions hasura_times_any_answer.
Print Assumptions hasura_failed_query_timed_refuted.
Print Assumptions hasura_plan_shown.
Print Assumptions hasura_report.
