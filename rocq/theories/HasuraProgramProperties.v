(** C104, C105, C106: the whole Hasura command. *)
From Coq Require Import String List NArith ZArith QArith Bool Lia Arith Sorting Permutation.
From Verif Require Import Base IndexText IndexTextSpec IndexTextProofs IndexTextProperties IndexBuild IndexBuildSpec TableFields BuildSpec BuildProofs BuildProperties
  Existing ExistingSpec ExistingProofs ExistingProperties
  PgAst PgCollect PgSpec PgProofs PgRegionProofs PgWalkSpec PgProperties
  ExplainTree ExplainSpec PgExplainSpec PlanView PlanViewSpec PlanViewProofs PlanViewProperties SqlServer MetaSql MetaSqlProofs Catalog CatalogSpec CatalogReadProofs CatalogPgProperties SqlRun
  Examiner ExaminerProperties SuggestCmd CommandText Json HandOver HandOverSpec HandOverProofs HandOverProperties Program ProgramSpec ProgramProofs
  HasuraProgram HasuraProgramSpec HasuraProgramProofs.
From Verif Require PgExplain PgArray ConnText MysqlCollect MysqlProperties LoadChartsProperties Hasura HasuraSpec HasuraProofs HasuraProperties.
Import ListNotations.
Local Open Scope string_scope.
Local Open Scope list_scope.
Local Open Scope nat_scope.

Section Map.
Context {A B : Type} (f : A -> B) (create drop : gostring -> index_target -> A) (query : A)
  (create' drop' : gostring -> index_target -> B)
  (HC : forall n it, f (create n it) = create' n it) (HD : forall n it, f (drop n it) = drop' n it).
Lemma all_tried_map : forall its acts, all_tried create drop query its acts -> all_tried create' drop' (f query) its (map f acts).
Proof.
  induction 1 as [|n it its acts H IH]; cbn [map]; [constructor|]. rewrite map_app. unfold trial at 1. cbn [map]. rewrite HC, HD.
  exact (tried_one create' drop' (f query) n it its _ IH).
Qed.
Lemma broken_off_map : forall its acts, broken_off create drop query its acts -> broken_off create' drop' (f query) its (map f acts).
Proof.
  induction 1 as [n it its|n it its|n it its acts H IH]; [cbn [map]; rewrite HC; constructor| |].
  - unfold trial. cbn [map]. rewrite HC, HD. exact (broken_trial create' drop' (f query) n it its).
  - rewrite map_app. unfold trial at 1. cbn [map]. rewrite HC, HD. exact (broken_later create' drop' (f query) n it its _ IH).
Qed.
Lemma examined_all_map : forall its acts, examined_all create drop query its acts -> examined_all create' drop' (f query) its (map f acts).
Proof. intros its acts (rest & -> & H). exists (map f rest). split; [reflexivity|now apply all_tried_map]. Qed.
Lemma examined_some_map : forall its acts, examined_some create drop query its acts -> examined_some create' drop' (f query) its (map f acts).
Proof. intros its acts [->|(rest & -> & H)]; [now left|right]. exists (map f rest). split; [reflexivity|now apply broken_off_map]. Qed.
End Map.

Lemma hear_question : forall q, hear (question q) = HSql q true.
Proof. reflexivity. Qed.
Lemma hear_create : forall n it,
    hear (APost query_path (run_sql_json {| Hasura.rs_sql := pg_create_sql n it; Hasura.rs_read_only := None |})) = create_index n it.
Proof.
  intros n it. change (HSql (pg_create_sql n it) false = create_index n it). unfold create_index, pg_create_sql. f_equal.
  rewrite (map_ext (fun c => dq ++ safe_name c ++ dq) (fun c => lit """" ++ map (fun x => if is_word x then x else 95%N) c ++ lit """"))
    by (intros c; rewrite safe_name_map; reflexivity).
  change (lit "CREATE INDEX """) with (lit "CREATE INDEX " ++ dq). change (lit """ ON """) with (dq ++ lit " ON " ++ dq).
  change (lit """ (") with (dq ++ lit " ("). now rewrite <- !app_assoc.
Qed.
Lemma hear_drop : forall n it,
    hear (APost query_path (run_sql_json {| Hasura.rs_sql := pg_drop_sql n it; Hasura.rs_read_only := None |})) = drop_index n it.
Proof. reflexivity. Qed.

Section Hasura.
Context {W : Type} (hv : hworld W) (unmarshal : gostring -> option jv) (kfold : rune -> rune)
  (norm : gostring -> gostring) (fold : rune -> rune) (so : list gostring -> list gostring)
  (ord : order gostring) (ordf : order ifield) (srt : list index_target_table -> list index_target_table)
  (unix : N) (rnds : nat -> N) (scan : gostring -> outcome (list gostring)) (parse : gostring -> outcome (list node)).
Context (Hso : forall l, Permutation (so l) l) (Ho : is_order ord) (Hof : is_order ordf) (Hs : is_sort itt_less srt).
Context (runs : bool) (texts : list gostring) (query variables output : gostring) (float : Q -> option Q)
  (parse_url : gostring -> outcome unit).

(** The tables of the SQL Hasura explained the query with *)
Definition hasura_reads (w : W) (v : option (list (gostring * jv))) (t : gostring) : Prop :=
  exists tr w1 e root, explain_gql hv unmarshal kfold query v w = (tr, w1, Ok [Some e]) /\
    parse (ex_sql e) = Ok [root] /\ table_read norm (fun _ => False) root t.

Lemma asked : forall T tables (table : gostring -> Prop) q, T = Hasura.column_template \/ T = Hasura.index_template ->
    (forall t, In t tables -> table t) -> Hasura.build_query T (lit "public") tables = Ok q -> asks_public T table q.
Proof.
  intros T tables table q HT HI HB. destruct (HasuraProofs.build_query_filled T _ _ _ HT HB) as (_ & HW & HF).
  exists tables. split; [exact HI|]. split; [exact HW|]. split; [exact HF|]. intros HN. destruct hasura_two_marks as [H1 H2].
  destruct HT as [->| ->]; eexists.
  - exact (quoted_text Hasura.column_template pg_column_query _ tables q ltac:(cbn; tauto) parse_hasura_column H1 HN HB).
  - exact (quoted_text Hasura.index_template (pg_index_query index_items) _ tables q ltac:(cbn; tauto) parse_hasura_index H2 HN HB).
Qed.
Lemma hasura_inv : forall server parsed its, Hasura.hasura_suggest norm fold so ord ordf srt scan server parsed = Ok its ->
    forall root tables, parsed = Ok [root] -> collect_table_names norm so root = Ok (inl tables) ->
    Forall (fun it => In (it_table it) tables /\ it_cols it <> []) its.
Proof.
  intros server parsed its H root tables -> ET. unfold Hasura.hasura_suggest in H. cbn [obind] in H. rewrite ET in H. cbn [obind MysqlCollect.first_error] in H.
  unfold Hasura.hasura_table_schemas in H. destruct (Hasura.get_table_columns server (lit "public") tables) as [rows|m|] eqn:EC; cbn [obind] in H; try discriminate.
  destruct (check_schemas tables (create_table_schemas tables rows)) as [schemas|m|] eqn:ES; cbn [obind] in H; try discriminate.
  destruct (collect_scopes norm (lit "public") root) as [[scopes|errs]| |]; cbn [obind MysqlCollect.first_error] in H; try discriminate; [|destruct errs; discriminate].
  destruct tables as [|t0 l].
  - cbn in ES. injection ES as <-. destruct (build ord ordf srt [] scopes) as [its0|m|] eqn:EB; cbn [obind] in H; try discriminate.
    assert (its0 = []) as ->.
    { destruct its0 as [|it its0]; [reflexivity|]. exfalso. destruct (suggested_columns_exist _ _ _ _ _ _ Ho Hof Hs EB it (or_introl eq_refl)) as (ts & [] & _). }
    unfold remove_existing in H. cbn [length seq uniq map] in H. destruct (Hasura.get_indexes server scan _ _) as [infos|m|]; cbn [obind] in H; try discriminate.
    injection H as <-. constructor.
  - assert (HSF : suggest_from fold ord ordf srt (fun _ => Ok rows) (Hasura.get_indexes server scan (lit "public")) (t0 :: l) scopes = Ok its).
    { unfold suggest_from, collect_table_schemas. cbn [obind]. rewrite ES. exact H. }
    destruct (suggestions_useful_and_new _ _ _ _ _ _ _ _ _ _ Ho Hof Hs (eq_refl : (fun _ : list gostring => Ok rows) (t0 :: l) = Ok rows) HSF) as (names & infos & _ & _ & HU).
    apply Forall_forall. intros it Hit. destruct (HU it Hit) as (_ & U1 & U2 & _). auto.
Qed.
Lemma explain_acts : forall v w, exists w1 r, explain_gql hv unmarshal kfold query v w = ([APost explain_path (explain_json query v)], w1, r).
Proof.
  intros v w. unfold explain_gql, andthen. rewrite post_run. destruct (posted _); [|eauto|eauto]. unfold give. rewrite app_nil_r. eauto.
Qed.

(** ** C104 *)
(** Everything sent: nothing if the variables or the settings cannot be read; else the
    query to be explained, two read-only questions about its tables, the examination if
    asked for, and the report. *)
Lemma hasura_cmd_talk : forall v w tr w' r,
    hasura_suggest_cmd hv unmarshal kfold fold so ord ordf srt unix rnds norm parse scan runs texts query variables output v w = (tr, w', r) ->
    hasura_talk query (variables_json v) output runs (new_index_targets_from_texts texts) (hasura_reads w v)
      (fun b e => exists w1, snd (h_write hv w1 output b) = e) (map hear tr) r.
Proof.
  intros v w tr w' r H. unfold hasura_suggest_cmd in H. apply andthen_inv in H. destruct H as (tr1 & w1 & r1 & H1 & H).
  destruct (explain_acts v w) as (w1' & r1' & E). pose proof E as E0. rewrite H1 in E. injection E as -> <- <-.
  assert (HX : hear (APost explain_path (explain_json query v)) = HExplain query (variables_json v)) by reflexivity.
  destruct r1 as [res|m|]; [|destruct H as (-> & -> & ->); cbn [map]; rewrite HX; apply ho_explain; intros x; discriminate
    |destruct H as (-> & -> & ->); cbn [map]; rewrite HX; apply ho_explain; intros x; discriminate].
  destruct H as (tr2 & H & ->). cbn [app map]. rewrite HX.
  destruct res as [|[e|] [|x res]]; try (unfold give in H; injection H as <- <- <-; cbn [map]; apply ho_explain; intros y; discriminate).
  destruct (PgExplain.build_explain (ex_plan e)) as [plan|m|];
    [rewrite give_ok in H|rewrite give_err in H; injection H as <- <- <-; apply ho_explain; intros y; discriminate|rewrite give_panic in H; injection H as <- <- <-; apply ho_explain; intros y; discriminate].
  apply andthen_inv in H. destruct H as (tr3 & w3 & r3 & H3 & H).
  destruct (hasura_suggest_steps hv unmarshal kfold fold so ord ordf srt norm parse scan Ho Hof Hs _ _ _ _ _ H3) as (w2 & HR & HSt).
  assert (HFail : failed r3 -> tr2 = tr3 /\ failed r).
  { intros HF. destruct r3 as [its|m|]; [elim (HF its eq_refl)| |]; destruct H as (-> & _ & ->); split; auto; intros y; discriminate. }
  destruct HSt as [(-> & _ & HF)|(tables & q1 & (root & tn & HP & HT0 & HT) & E1 & Ew & HSt)].
  { destruct (HFail HF) as [-> HF']. apply ho_explain. exact HF'. }
  assert (tn = inl tables) as -> by (destruct tn as [ts|[|m l]]; try discriminate; now injection HT as ->).
  assert (HTab : forall t, In t tables -> hasura_reads w v t).
  { intros t Ht. exists [APost explain_path (explain_json query v)], w1, e, root. split; [exact H1|]. split; [exact HP|].
    now apply (pg_table_names_exact norm so root tables Hso HT0). }
  assert (A1 : asks_public Hasura.column_template (hasura_reads w v) q1) by (eapply asked; [now left|exact HTab|exact E1]).
  destruct HSt as [(-> & _ & HF)|(names & q2 & E2 & HIn & -> & _)].
  { destruct (HFail HF) as [-> HF']. cbn [map]. rewrite hear_question. now apply ho_columns. }
  assert (A2 : asks_public Hasura.index_template (hasura_reads w v) q2) by (eapply asked; [now right|intros t Ht; apply HTab, HIn, Ht|exact E2]).
  destruct r3 as [its|m|]; [|destruct H as (-> & _ & ->); cbn [map]; rewrite !hear_question; apply ho_indexes; auto; intros y; discriminate
    |destruct H as (-> & _ & ->); cbn [map]; rewrite !hear_question; apply ho_indexes; auto; intros y; discriminate].
  destruct H as (tr4 & H & ->). cbn [app map]. rewrite !hear_question.
  assert (HI : Forall (fun it => hasura_reads w v (it_table it) /\ it_cols it <> []) its).
  { symmetry in HR. eapply Forall_impl; [|exact (hasura_inv _ _ _ HR root tables HP HT0)]. intros it [K1 K2]. split; [now apply HTab|exact K2]. }
  destruct (new_index_targets_from_texts texts) as [vars|m|] eqn:EV;
    [rewrite give_ok in H|rewrite give_err in H; injection H as <- <- <-; apply ho_indexes; auto; intros y; discriminate|rewrite give_panic in H; injection H as <- <- <-; apply ho_indexes; auto; intros y; discriminate].
  destruct (conclude_talk _ _ _ _ _ _ _ _ _ _ _ _ _ _ _ _ _ HI H) as [(targets & HX1 & HTg & HE & HF)|(exam & report & -> & HE & HR')].
  - eapply ho_examine; eauto. exact (examined_some_map hear _ _ _ create_index drop_index hear_create hear_drop _ _ HE).
  - rewrite map_app. eapply ho_report; eauto.
    + destruct runs; [|now rewrite HE]. destruct HE as (targets & HTg & HE). exists targets. split; [exact HTg|].
      exact (examined_all_map hear _ _ _ create_index drop_index hear_create hear_drop _ _ HE).
    + destruct HR' as [(-> & -> & ->)|(HO & b & ee & -> & HW & ->)]; [left; auto|right]. split; [exact HO|]. exists b, ee. auto.
Qed.
Theorem hasura_conversation : forall env w tr w' r,
    hasura_main hv unmarshal kfold fold so ord ordf srt unix rnds norm parse scan float parse_url env runs texts query variables output w = (tr, w', r) ->
    (tr = [] /\ w' = w /\ failed r /\
     (failed (parse_variables float unmarshal variables) \/ env (lit "HASURA_URL") = [] \/ failed (parse_url (env (lit "HASURA_URL"))) \/
      env (lit "HASURA_ADMIN_SECRET") = [])) \/
    exists v, parse_variables float unmarshal variables = Ok v /\ env (lit "HASURA_URL") <> [] /\ env (lit "HASURA_ADMIN_SECRET") <> [] /\
      hasura_talk query (variables_json v) output runs (new_index_targets_from_texts texts) (hasura_reads w v)
        (fun b e => exists w1, snd (h_write hv w1 output b) = e) (map hear tr) r.
Proof.
  intros env w tr w' r H. unfold hasura_main in H.
  destruct (parse_variables float unmarshal variables) as [v|m|]; [rewrite give_ok in H| |];
    [|rewrite give_err in H; injection H as <- <- <-; left; split; [reflexivity|split; [reflexivity|split; [intros x; discriminate|left; intros x; discriminate]]]
     |rewrite give_panic in H; injection H as <- <- <-; left; split; [reflexivity|split; [reflexivity|split; [intros x; discriminate|left; intros x; discriminate]]]].
  unfold ConnText.hasura_config_from_env, ConnText.get_env in H.
  destruct (env (lit "HASURA_URL")) as [|uc u] eqn:EU.
  { cbn [obind] in H. rewrite give_err in H. injection H as <- <- <-. left. split; [reflexivity|]. split; [reflexivity|]. split; [intros x; discriminate|auto]. }
  cbn [obind] in H. destruct (parse_url (uc :: u)) as [x|m|] eqn:EP.
  2:{ cbn [obind] in H. rewrite give_err in H. injection H as <- <- <-. left. split; [reflexivity|]. split; [reflexivity|]. split; [intros x; discriminate|].
      right. right. left. intros x; discriminate. }
  2:{ cbn [obind] in H. rewrite give_panic in H. injection H as <- <- <-. left. split; [reflexivity|]. split; [reflexivity|]. split; [intros x; discriminate|].
      right. right. left. intros x; discriminate. }
  cbn [obind] in H. destruct (env (lit "HASURA_ADMIN_SECRET")) as [|sc s] eqn:ES.
  { cbn [obind] in H. rewrite give_err in H. injection H as <- <- <-. left. split; [reflexivity|]. split; [reflexivity|]. split; [intros y; discriminate|auto]. }
  cbn [obind] in H. rewrite give_ok in H.
  right. exists v. split; [reflexivity|]. split; [discriminate|]. split; [discriminate|]. eapply hasura_cmd_talk. exact H.
Qed.
End Hasura.

(** What follows from the shape of a conversation. *)
Section Follows.
Context (query : gostring) (variables : jv) (output : gostring) (runs : bool) (vars : outcome (list index_target))
  (table : gostring -> Prop) (wrote : build_option -> option gostring -> Prop).
Let talk := hasura_talk query variables output runs vars table wrote.
Definition trial_act (targets : list index_target) (h : heard) : Prop :=
  h = HQuery query variables \/ exists n it, In it targets /\ (h = create_index n it \/ h = drop_index n it).
Lemma tried_acts : forall its acts, all_tried create_index drop_index (HQuery query variables) its acts -> Forall (trial_act its) acts.
Proof.
  assert (HM : forall it its h, trial_act its h -> trial_act (it :: its) h).
  { intros it its h [->|(n & it' & Hi & Hh)]; [now left|right]. exists n, it'. split; [now right|exact Hh]. }
  induction 1 as [|n it its acts H IH]; [constructor|]. apply Forall_app. split; [|eapply Forall_impl; [|exact IH]; intros a; apply HM].
  apply Forall_cons; [right; exists n, it; split; [now left|now left]|]. apply Forall_cons; [now left|]. apply Forall_cons; [right; exists n, it; split; [now left|now right]|apply Forall_nil].
Qed.
Lemma broken_acts : forall its acts, broken_off create_index drop_index (HQuery query variables) its acts -> Forall (trial_act its) acts.
Proof.
  assert (HM : forall it its h, trial_act its h -> trial_act (it :: its) h).
  { intros it its h [->|(n & it' & Hi & Hh)]; [now left|right]. exists n, it'. split; [now right|exact Hh]. }
  assert (HT : forall n it its, Forall (trial_act (it :: its)) (trial create_index drop_index (HQuery query variables) n it)).
  { intros n it its. apply Forall_cons; [right; exists n, it; split; [now left|now left]|]. apply Forall_cons; [now left|]. apply Forall_cons; [right; exists n, it; split; [now left|now right]|apply Forall_nil]. }
  induction 1 as [n it its|n it its|n it its acts H IH].
  - apply Forall_cons; [right; exists n, it; split; [now left|now left]|apply Forall_nil].
  - apply HT.
  - apply Forall_app. split; [apply HT|eapply Forall_impl; [|exact IH]; intros a; apply HM].
Qed.
Definition asking (h : heard) : Prop := exists q, h = HSql q true /\
  (asks_public Hasura.column_template table q \/ asks_public Hasura.index_template table q).
Lemma heard_parts : forall hs r, talk hs r -> exists questions exam report,
    hs = HExplain query variables :: questions ++ exam ++ report /\ length questions <= 2 /\ Forall asking questions /\
    (exam = [] \/ runs = true /\ exists v targets, vars = Ok v /\ targets_of table v targets /\ Forall (trial_act targets) exam) /\
    (report = [] \/ output <> [] /\ exists b e, report = [HWrite output b] /\ wrote b e /\ r = match e with None => Ok tt | Some m => Err m end).
Proof.
  intros hs r H. destruct H as [r HF|q r H1 HF|q q' r H1 H2 HF|q q' v targets exam r H1 H2 HV HX HT HE HF|q q' v exam report r H1 H2 HV HE HR].
  - exists [], [], []. repeat split; auto; cbn; lia.
  - exists [HSql q true], [], []. split; [reflexivity|]. split; [cbn; lia|]. split; [|auto]. apply Forall_cons; [exists q; auto|apply Forall_nil].
  - exists [HSql q true; HSql q' true], [], []. split; [reflexivity|]. split; [cbn; lia|]. split; [|auto]. apply Forall_cons; [exists q; auto|apply Forall_cons; [exists q'; auto|apply Forall_nil]].
  - exists [HSql q true; HSql q' true], exam, []. split; [now rewrite app_nil_r|]. split; [cbn; lia|].
    split; [apply Forall_cons; [exists q; auto|apply Forall_cons; [exists q'; auto|apply Forall_nil]]|]. split; [|auto]. right. split; [exact HX|]. exists v, targets. split; [exact HV|]. split; [exact HT|].
    destruct HE as [->|(rest & -> & HB)]; [apply Forall_cons; [now left|apply Forall_nil]|]. constructor; [now left|]. exact (broken_acts _ _ HB).
  - exists [HSql q true; HSql q' true], exam, report. split; [reflexivity|]. split; [cbn; lia|].
    split; [apply Forall_cons; [exists q; auto|apply Forall_cons; [exists q'; auto|apply Forall_nil]]|]. split.
    + destruct runs; [|now left]. right. split; [reflexivity|]. destruct HE as (targets & HT & rest & -> & HB). exists v, targets. split; [exact HV|]. split; [exact HT|].
      constructor; [now left|]. exact (tried_acts _ _ HB).
    + destruct HR as [(_ & -> & _)|(HO & b & e & -> & HW & HR)]; [now left|right]. split; [exact HO|]. exists b, e. auto.
Qed.
(** Every request is one Hasura understands.  Without the option to examine, the query is
    not run, and SQL only read-only.  With it, SQL that is not read-only creates or removes
    an index for one of the targets. *)
Theorem hasura_harmless : forall hs r h, talk hs r -> In h hs ->
    match h with
    | HExplain q v => q = query /\ v = variables
    | HQuery q v => runs = true /\ q = query /\ v = variables
    | HSql q true => asks_public Hasura.column_template table q \/ asks_public Hasura.index_template table q
    | HSql q false => runs = true /\ exists v targets n it, vars = Ok v /\ targets_of table v targets /\ In it targets /\
        (HSql q false = create_index n it \/ HSql q false = drop_index n it)
    | HWrite p b => p = output /\ output <> [] /\ exists before e, hs = before ++ [h] /\ wrote b e /\ r = match e with None => Ok tt | Some m => Err m end
    | HOther => False
    end.
Proof.
  intros hs r h H Hh. destruct (heard_parts hs r H) as (questions & exam & report & -> & _ & HQ & HE & HR).
  destruct Hh as [<-|Hh]; [auto|]. apply in_app_or in Hh. destruct Hh as [Hh|Hh]; [|apply in_app_or in Hh; destruct Hh as [Hh|Hh]].
  - rewrite Forall_forall in HQ. destruct (HQ h Hh) as (q & -> & HA). exact HA.
  - destruct HE as [->|(HX & v & targets & HV & HT & HE)]; [destruct Hh|]. rewrite Forall_forall in HE. destruct (HE h Hh) as [->|(n & it & Hi & [->| ->])]; [auto| |].
    + cbn. split; [exact HX|]. exists v, targets, n, it. split; [exact HV|]. split; [exact HT|]. split; [exact Hi|]. left. reflexivity.
    + cbn. split; [exact HX|]. exists v, targets, n, it. split; [exact HV|]. split; [exact HT|]. split; [exact Hi|]. right. reflexivity.
  - destruct HR as [->|(HO & b & e & -> & HW & HR)]; [destruct Hh|]. destruct Hh as [<-|[]]. split; [reflexivity|]. split; [exact HO|].
    exists (HExplain query variables :: questions ++ exam), e. split; [cbn [app]; now rewrite app_assoc|auto].
Qed.
Definition is_run (h : heard) : bool := match h with HQuery _ _ => true | _ => false end.
Definition is_change (h : heard) : bool := match h with HSql _ false => true | _ => false end.
Lemma tried_counts : forall its acts, all_tried create_index drop_index (HQuery query variables) its acts ->
    length (filter is_run acts) = length its /\ length (filter is_change acts) = 2 * length its.
Proof.
  induction 1 as [|n it its acts H [IH1 IH2]]; [auto|]. rewrite !filter_app, !app_length. cbn [trial filter is_run is_change create_index drop_index length]. lia.
Qed.
(** A command that says it succeeded has written the report; having examined, it has run
    the query once and once more for every target, and created and removed an index for each. *)
Theorem hasura_success : forall hs, talk hs (Ok tt) ->
    exists v, vars = Ok v /\
      (if runs then exists targets, targets_of table v targets /\
         length (filter is_run hs) = 1 + length targets /\ length (filter is_change hs) = 2 * length targets
       else filter is_run hs = [] /\ filter is_change hs = []) /\
      (output <> [] -> exists before b, hs = before ++ [HWrite output b] /\ wrote b None).
Proof.
  intros hs H. unfold talk in H. remember (Ok tt) as ok eqn:EO.
  destruct H as [r HF|q r H1 HF|q q' r H1 H2 HF|q q' v targets exam r H1 H2 HV HX HT HE HF|q q' v exam report r H1 H2 HV HE HR]; try (elim (HF tt EO)).
  assert (HRep : filter is_run report = [] /\ filter is_change report = []) by (destruct HR as [(_ & -> & _)|(_ & b & e & -> & _)]; auto).
  destruct HRep as [R1 R2]. exists v. split; [exact HV|]. split.
  - destruct runs.
    + destruct HE as (targets & HT & rest & -> & HB). exists targets. split; [exact HT|]. destruct (tried_counts _ _ HB) as [C1 C2].
      cbn [filter is_run is_change app]. rewrite !filter_app, R1, R2, !app_nil_r. cbn [length]. lia.
    + subst exam. cbn [filter is_run is_change app]. auto.
  - intros HO. destruct HR as [(HO' & _)|(_ & b & e & -> & HW & HR)]; [congruence|]. exists (HExplain query variables :: HSql q true :: HSql q' true :: exam), b.
    split; [reflexivity|]. destruct e; [congruence|exact HW].
Qed.
End Follows.

(** ** An example *)
Definition rows_json (rows : list (list gostring)) : jv := JArr (map (fun r => JArr (map JStr r)) rows).
(** A server keeping a count; texts stand for themselves, being numbered *)
Definition ex_answers (tables : gostring) : option jv :=
  if seqb tables (lit "plan") then
    Some (JArr [JObj [(lit "field", JStr (lit "users")); (lit "sql", JStr (lit "SELECT ..."));
                      (lit "plan", JArr (map JStr [lit "Hash Join  (cost=1.00..2.50 rows=3 width=8)"; lit "  Hash Cond: (a.id = b.id)";
                                                   lit "  ->  Seq Scan on users  (cost=0.00..1.50 rows=3 width=8)"]))]])
  else if seqb tables (lit "columns") then
    match run_hasura pg_db {| Hasura.rs_sql := match Hasura.build_query Hasura.column_template public [lit "tasks"; lit "users"] with Ok q => q | _ => [] end; Hasura.rs_read_only := Some true |} with
    | Ok rows => Some (JObj [(lit "result_type", JStr (lit "TuplesOk")); (lit "result", rows_json rows)])
    | _ => None
    end
  else if seqb tables (lit "indexes") then
    match run_hasura pg_db {| Hasura.rs_sql := match Hasura.build_query Hasura.index_template public [lit "tasks"; lit "users"] with Ok q => q | _ => [] end; Hasura.rs_read_only := Some true |} with
    | Ok rows => Some (JObj [(lit "result_type", JStr (lit "TuplesOk")); (lit "result", rows_json rows)])
    | _ => None
    end
  else if seqb tables (lit "{}") then Some (JObj [])
  else if seqb tables (lit "done") then Some (JObj [(lit "result_type", JStr (lit "CommandOk")); (lit "result", JNull)])
  else None.
Definition ex_hworld : hworld nat := {|
  h_post := fun n path body =>
    (S n, Z.of_nat n,
     match hear (APost path body) with
     | HExplain _ _ => Answer 200 (lit "plan")
     | HSql q true => Answer 200 (if N.eqb (nth 7 q 0%N) 10%N then lit "columns" else lit "indexes")
     | HSql _ false => Answer 200 (lit "done")
     | HQuery _ _ => Answer 200 (lit "{""data"":{}}")
     | _ => Answer 404 (lit "resource does not exist")
     end);
  h_write := fun n _ _ => (n, None) |}.
Definition ex_env (k : gostring) : gostring :=
  if seqb k (lit "HASURA_URL") then lit "http://localhost:8080" else if seqb k (lit "HASURA_ADMIN_SECRET") then lit "secret" else [].
Definition ex_main (runs : bool) (texts : list gostring) (output : gostring) :=
  hasura_main ex_hworld ex_answers ascii_fold ascii_fold (fun l => l) id_ord id_ord isort 7 (fun _ => 0%N) low (fun _ => Ok [ex_stmt]) PgArray.array_in
    (fun q => Some q) (fun _ => Ok tt) ex_env runs texts (lit "query { users { id } }") (lit "{}") output 0.
Definition told (h : heard) : gostring :=
  match h with
  | HExplain q _ => lit "explain " ++ q
  | HQuery q _ => lit "run " ++ q
  | HSql q true => lit "ask"
  | HSql q false => q
  | HWrite p _ => lit "write " ++ p
  | HOther => lit "?"
  end.
Example hasura_conversation_ex :
  map told (map hear (fst (fst (ex_main true [lit "users:email"] (lit "out.html"))))) =
  [lit "explain query { users { id } }"; lit "ask"; lit "ask"; lit "run query { users { id } }";
   lit "CREATE INDEX ""7_email"" ON ""users"" (""email"")"; lit "run query { users { id } }"; lit "DROP INDEX ""7_email"""; lit "write out.html"] /\
  snd (ex_main true [lit "users:email"] (lit "out.html")) = Ok tt /\
  map told (map hear (fst (fst (ex_main false [] [])))) = [lit "explain query { users { id } }"; lit "ask"; lit "ask"].
Proof. split; [|split]; vm_compute; reflexivity. Qed.
Print Assumptions hasura_conversation.
Print Assumptions hasura_harmless.
Print Assumptions hasura_success.
