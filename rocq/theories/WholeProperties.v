(** C137: from the report of one run to the examination of the next. *)
From Coq Require Import String List NArith ZArith QArith Bool Lia Arith Permutation.
From Verif Require Import Base IndexText IndexTextSpec IndexBuild TableFields SqlServer Catalog CatalogSpec Examiner CommandText CommandTextSpec
  CommandLine CommandLineSpec CommandLineProperties ExplainTree PlanViewSpec PlanView HandOver HandOverSpec SuggestCmd Json Program ProgramSpec ProgramProofs HasuraProgram HasuraProgramSpec WholeProgram WholeSpec.
From Verif Require PlanViewProperties MysqlAst PgAst PgSpec PgProperties ProgramMyProperties ProgramPgProperties ConnText CatalogMyProperties HasuraProgramProperties HasuraReportProperties.
Import ListNotations.
Local Open Scope nat_scope.

Section Talk.
  Context (create drop : gostring -> index_target -> gostring) (explain query schema out : gostring) (chosen : list index_target)
    (table : gostring -> Prop) (wrote : build_option -> option gostring -> Prop).
  Context (NE : chosen <> []) (OUT : out <> []).
  Notation conv := (conversation create drop explain query schema out true (Ok chosen) table wrote).

  Lemma chosen_targets : forall targets, targets_of table chosen targets -> targets = chosen.
  Proof. intros targets [[-> _] | [E _]]; [reflexivity|contradiction]. Qed.
  Lemma all_tried_touch : forall its acts, all_tried (fun n it => AExec (create n it)) (fun n it => AExec (drop n it)) (AExec query) its acts ->
    forall a, In a acts -> a = AExec query \/ exists n it, In it its /\ (a = AExec (create n it) \/ a = AExec (drop n it)).
  Proof.
    induction 1 as [|n it its acts H IH]; intros a I; [destruct I|]. apply in_app_iff in I as [I | I].
    - destruct I as [<- | [<- | [<- | []]]]; [right|now left|right]; exists n, it; (split; [now left|auto]).
    - destruct (IH a I) as [-> | (m & jt & J & E)]; [now left|]. right. exists m, jt. split; [now right|exact E].
  Qed.
  Lemma broken_touch : forall its acts, broken_off (fun n it => AExec (create n it)) (fun n it => AExec (drop n it)) (AExec query) its acts ->
    forall a, In a acts -> a = AExec query \/ exists n it, In it its /\ (a = AExec (create n it) \/ a = AExec (drop n it)).
  Proof.
    induction 1 as [n it its|n it its|n it its acts H IH]; intros a I.
    - destruct I as [<- | []]. right. exists n, it. split; [now left|auto].
    - destruct I as [<- | [<- | [<- | []]]]; [right|now left|right]; exists n, it; (split; [now left|auto]).
    - apply in_app_iff in I as [I | I].
      + destruct I as [<- | [<- | [<- | []]]]; [right|now left|right]; exists n, it; (split; [now left|auto]).
      + destruct (IH a I) as [-> | (m & jt & J & E)]; [now left|]. right. exists m, jt. split; [now right|exact E].
  Qed.
  Lemma exam_acts : forall inner r, conv inner r ->
    forall a, In a inner -> (exists rq, a = ASelect rq) \/ a = AExec query \/
      (exists n it, In it chosen /\ (a = AExec (create n it) \/ a = AExec (drop n it))) \/ exists b, a = AWrite out b.
  Proof.
    intros inner r H a I. inversion H as [r0 HV HF|v r0 HV HF|v rq r0 HV A1 HF|v rq rq' r0 HV A1 A2 HF
      |v rq rq' targets exam r0 HV A1 A2 _ HT HE HF|v rq rq' exam report r0 HV A1 A2 HX HR]; subst.
    - destruct I.
    - destruct I as [<- | []]. left. eauto.
    - destruct I as [<- | [<- | []]]; left; eauto.
    - destruct I as [<- | [<- | [<- | []]]]; left; eauto.
    - injection HV as <-. apply chosen_targets in HT as ->. destruct I as [<- | [<- | [<- | I]]]; [left; eauto|left; eauto|left; eauto|].
      right. destruct HE as [-> | (rest & -> & B)].
      + destruct I as [<- | []]. now left.
      + destruct I as [<- | I]; [now left|]. destruct (broken_touch _ _ B a I) as [-> | X]; [now left|right; now left].
    - injection HV as <-. destruct HX as (targets & HT & rest & -> & T). apply chosen_targets in HT as ->.
      destruct I as [<- | [<- | [<- | I]]]; [left; eauto|left; eauto|left; eauto|]. right.
      apply in_app_iff in I as [[<- | I] | I].
      + now left.
      + destruct (all_tried_touch _ _ T a I) as [-> | X]; [now left|right; now left].
      + right. right. destruct HR as [(-> & -> & _) | (_ & b & e & -> & _)]; [destruct I|]. destruct I as [<- | []]. eauto.
  Qed.
  Lemma exam_ok : forall connection inner, conv inner (Ok tt) ->
    examines_just create drop explain query out chosen (AOpen connection :: inner ++ [AClose]).
  Proof.
    intros connection inner H. inversion H as [r0 HV HF|v r0 HV HF|v rq r0 HV A1 HF|v rq rq' r0 HV A1 A2 HF
      |v rq rq' targets exam r0 HV A1 A2 _ HT HE HF|v rq rq' exam report r0 HV A1 A2 HX HR]; subst;
      try (destruct (HF tt); reflexivity).
    injection HV as <-. destruct HX as (targets & HT & HX). apply chosen_targets in HT as ->.
    destruct HR as [(E & _) | (_ & b & e & -> & _)]; [contradiction|].
    exists connection, rq, rq', exam, b. split; [|exact HX]. cbn [app]. rewrite <- app_assoc. reflexivity.
  Qed.
  Lemma run_bounded : forall connection tr inner, tr = [AOpen connection] \/ tr = AOpen connection :: inner ++ [AClose] ->
    (tr = AOpen connection :: inner ++ [AClose] -> exists r, conv inner r) -> touches_only create drop query chosen tr /\ writes_only out tr.
  Proof.
    intros connection tr inner [-> | ->] H.
    - split; [intros s [I | []]; discriminate|intros p b [I | []]; discriminate].
    - destruct (H eq_refl) as [r C]. clear H. pose proof (exam_acts _ _ C) as X.
      split.
      + intros s [I | I]; [discriminate|]. apply in_app_iff in I as [I | [I | []]]; [|discriminate].
        destruct (X _ I) as [[rq E] | [E | [(n & it & J & E) | [b E]]]]; try discriminate.
        * injection E as ->. now left.
        * right. exists n, it. split; [exact J|]. destruct E as [E | E]; injection E as ->; auto.
      + intros p b [I | I]; [discriminate|]. apply in_app_iff in I as [I | [I | []]]; [|discriminate].
        destruct (X _ I) as [[rq E] | [E | [(n & it & J & E) | [b' E]]]]; try discriminate.
        * destruct E; discriminate.
        * now injection E as -> _.
  Qed.
End Talk.

Section HasuraTalk.
  Context (query : gostring) (v : jv) (out : gostring) (chosen : list index_target) (table : gostring -> Prop) (wrote : build_option -> option gostring -> Prop).
  Context (NE : chosen <> []) (OUT : out <> []).
  Notation conv := (hasura_talk query v out true (Ok chosen) table wrote).
  Lemma hasura_exam_acts : forall hs r, conv hs r -> forall h, In h hs -> hasura_permits query v out chosen h.
  Proof.
    intros hs r H h I. pose proof (HasuraProgramProperties.hasura_harmless query v out true (Ok chosen) table wrote hs r h H I) as X.
    destruct h as [q0 v0|q0 v0|q0 [|]|p b|]; cbn [hasura_permits]; [exact X|now destruct X as (_ & X)|exact Logic.I| |now destruct X as (X & _)|exact X].
    destruct X as (_ & vs & targets & n & it & E & T & J & K). injection E as <-. destruct T as [[-> _] | [E _]]; [|contradiction].
    exists n, it. split; [exact J|]. exact K.
  Qed.
  Lemma hasura_exam_ok : forall tr, conv (map hear tr) (Ok tt) -> hasura_examines_just query v out chosen tr.
  Proof.
    intros tr H. unfold hasura_examines_just. inversion H as [r0 HF|q0 r0 A1 HF|q0 q1 r0 A1 A2 HF|q0 q1 vs targets exam r0 A1 A2 HV _ HT HE HF
      |q0 q1 vs exam report r0 A1 A2 HV HX HR]; subst; try (destruct (HF tt); reflexivity).
    injection HV as <-. destruct HX as (targets & HT & HX). destruct HT as [[-> _] | [E _]]; [|contradiction].
    destruct HR as [(E & _) | (_ & b & e & -> & _)]; [contradiction|]. exists q0, q1, exam, b. split; [reflexivity|exact HX].
  Qed.
End HasuraTalk.

Section Whole.
  Context {W : Type} (sv : world W) (low fold : rune -> rune) (norm : gostring -> gostring) (so : list gostring -> list gostring)
    (ord : order gostring) (ordf : order ifield) (srt : list index_target_table -> list index_target_table)
    (my_parse : gostring -> outcome (list MysqlAst.node)) (pg_parse : gostring -> outcome (list PgAst.node))
    (parse_int : gostring -> outcome Z) (q : gostring -> gostring) (q1 : rune -> gostring)
    (hv : hworld W) (unmarshal : gostring -> option jv) (kfold : rune -> rune) (float : Q -> option Q) (parse_url : gostring -> outcome unit)
    (other : job -> settings -> @prog W unit).
  Context (Hso : forall l, Permutation (so l) l) (Ho : is_order ord) (Hof : is_order ordf) (Hs : is_sort itt_less srt).
  Notation gr := (gr sv low fold norm so ord ordf srt my_parse pg_parse parse_int q q1 hv unmarshal kfold float parse_url other).
  Notation start_of := (start_of parse_int q q1 root_cmd).

  Lemma offered : forall senv k its checked output query variables,
    still_checked checked its <> [] -> Forall (fun it => it_cols it <> []) its ->
    Forall (fun it => identifier (it_table it) /\ Forall identifier (it_cols it)) (still_checked checked its) ->
    exists argv st texts out,
      shell_words senv (build_command_text k (still_checked checked its) (report_options k false output query variables)) = Some (lit "gr" :: argv) /\
      start_of argv = Ok (Run (job_of k) st []) /\
      suggest_options_of st =
        {| so_runs := true; so_texts := texts; so_query := query;
           so_variables := match k with SubHasura => variables | _ => lit "{}" end; so_output := out |} /\
      new_index_targets_from_texts texts = Ok (still_checked checked its) /\ out <> output /\ out <> [].
  Proof.
    intros senv k its checked output query variables NE CO ID.
    assert (forall it, In it (still_checked checked its) -> In it its) as SUB.
    { intros it I. unfold still_checked in I. apply in_map_iff in I as ([x y] & <- & I). apply filter_In in I as [I _].
      now apply in_combine_r in I. }
    destruct (offered_command_understood parse_int q q1 senv k false (still_checked checked its) output query variables NE) as (argv & st & texts & out & H).
    - apply Forall_forall. intros it I. rewrite Forall_forall in ID, CO. destruct (ID it I). auto.
    - exists argv, st, texts, out. exact H.
  Qed.

  (** ** C137 *)
  (** A run of the MySQL command without examination that succeeds leaves a report.  The
      browser shows its suggestions and a command for the ones left checked; typed into a
      shell this command makes the next run of the program examine exactly these, for the same
      query, and nothing else; its report goes to another file. *)
  Theorem mysql_next_run : forall coll cat unix rnds env argv st ws w tr w' format psrt checked senv,
    let o := suggest_options_of st in
    start_of argv = Ok (Run MysqlCmd st ws) -> so_runs o = false -> so_output o <> [] ->
    ProgramMyProperties.my_serves sv coll cat ->
    (forall w tables, (forall t, In t tables -> ProgramMyProperties.my_reads low (so_query o) my_parse t) ->
       my_names_apart coll (cat w) (env (lit "DB_DATABASE")) tables) ->
    is_sort HandOver.faster psrt ->
    gr unix rnds env argv w = (tr, w', Ok tt) ->
    exists b its command cards,
      In (AWrite (so_output o) b) tr /\ browse format psrt checked b = Ok cards /\
      In (CardSuggestion true (map index_text its) command) cards /\
      let chosen := still_checked checked its in
      (chosen <> [] -> Forall (fun it => identifier (it_table it) /\ Forall identifier (it_cols it)) chosen ->
       exists argv2 out, shell_words senv command = Some (lit "gr" :: argv2) /\ out <> so_output o /\
         forall unix2 rnds2 env2 w2 tr2 w2' r2, gr unix2 rnds2 env2 argv2 w2 = (tr2, w2', r2) ->
           touches_only mysql_create_sql mysql_drop_sql (so_query o) chosen tr2 /\ writes_only out tr2 /\
           (r2 = Ok tt -> examines_just mysql_create_sql mysql_drop_sql (lit "EXPLAIN ANALYZE FORMAT=TREE ") (so_query o) out chosen tr2)).
  Proof.
    intros coll cat unix rnds env argv st ws w tr w' format psrt checked senv o ST RN ON SV NA PS G.
    unfold WholeProgram.gr in G. rewrite ST in G. fold o in G. rewrite RN in G.
    (* the first run *)
    assert (exists connection w1 inner w2, tr = AOpen connection :: inner ++ [AClose] /\
      mysql_suggest_cmd sv fold so ord ordf srt unix rnds false (so_texts o) (so_query o) (so_output o) low my_parse (env (lit "DB_DATABASE")) w1 = (inner, w2, Ok tt)) as FIRST.
    { unfold mysql_main, ConnText.my_config_from_env, ConnText.get_env in G.
      destruct (env (lit "DB_USERNAME")) as [|uc u]; [discriminate|]. cbn [obind] in G.
      destruct (env (lit "DB_DATABASE")) as [|dc d]; [discriminate|]. cbn [obind] in G. rewrite ProgramProofs.give_ok in G.
      unfold with_connection in G. destruct (on_open sv w _) as [w1 [e|]]; [discriminate|]. cbn [ConnText.my_dbname] in G.
      destruct (mysql_suggest_cmd sv fold so ord ordf srt unix rnds false (so_texts o) (so_query o) (so_output o) low my_parse (dc :: d) w1)
        as [[inner w2] r2] eqn:EC.
      injection G as <- _ ->. eexists. exists w1, inner, w2. split; [reflexivity|exact EC]. }
    destruct FIRST as (connection & w1 & inner & w2 & -> & FIRST). clear G.
    destruct (ProgramMyProperties.mysql_report sv low fold so ord ordf srt unix rnds false (so_texts o) (so_query o) (so_output o) my_parse
      Hso Ho Hof Hs coll cat _ _ _ _ format psrt _ checked SV NA PS (PlanViewProperties.sort_bars_ok _) ON FIRST)
      as (before & b & w3 & name & text & rows & nodes & its & er & -> & _ & _ & WO & _ & -> & PAGE).
    destruct PAGE as (exam & BR & _); [discriminate|].
    set (command := build_command_text SubMysql (still_checked checked its) (report_options SubMysql false (so_output o) (so_query o) [])) in *.
    exists b, its, command. eexists. split; [|split; [exact BR|split]].
    - right. apply in_app_iff. left. apply in_app_iff. right. now left.
    - apply in_app_iff. right. apply in_app_iff. right. apply in_app_iff. left. now left.
    - intros chosen NE ID.
      destruct (offered senv SubMysql its checked (so_output o) (so_query o) [] NE) as (argv2 & st2 & texts & out & SH & ST2 & OPT & TX & D & N).
      { eapply Forall_impl; [|exact WO]. intros it (_ & H & _). exact H. }
      { exact ID. }
      exists argv2, out. split; [exact SH|]. split; [exact D|].
      intros unix2 rnds2 env2 w4 tr2 w5 r2 G2. unfold WholeProgram.gr in G2. rewrite ST2 in G2. cbn [job_of] in G2. rewrite OPT in G2.
      cbn [so_runs so_texts so_query so_output] in G2.
      destruct (ProgramMyProperties.mysql_conversation sv low fold so ord ordf srt unix2 rnds2 true texts (so_query o) out my_parse
        Hso Ho Hof Hs env2 w4 tr2 w5 r2 G2) as [(-> & F & _) | (c & cn & _ & _ & [(-> & F) | (inner2 & -> & C)])].
      + split; [intros s []|]. split; [intros p b0 []|]. intros ->. destruct (F tt). reflexivity.
      + split; [intros s [I | []]; discriminate|]. split; [intros p b0 [I | []]; discriminate|]. intros ->. destruct (F tt). reflexivity.
      + rewrite TX in C. apply and_assoc. split.
        { eapply run_bounded; [exact NE|exact N|right; reflexivity|intros _; exists r2; exact C]. }
         intros ->. eapply exam_ok; [exact NE|exact N|exact C].
  Qed.

  (** The same for PostgreSQL; its page shows a card with suggestions only if there are any. *)
  Theorem pg_next_run : forall reserved coll cat unix rnds env argv st ws w tr w' format psrt checked senv,
    let o := suggest_options_of st in
    start_of argv = Ok (Run PostgresCmd st ws) -> so_runs o = false -> so_output o <> [] ->
    ProgramPgProperties.pg_serves sv reserved coll cat -> (forall a b, coll a b = Eq <-> a = b) ->
    (forall root, pg_parse (so_query o) = Ok [root] -> PgSpec.supported norm PgProperties.public root /\ PgSpec.distinct root) ->
    is_sort HandOver.faster psrt ->
    gr unix rnds env argv w = (tr, w', Ok tt) ->
    exists b its command cards,
      In (AWrite (so_output o) b) tr /\ browse format psrt checked b = Ok cards /\
      (its <> [] -> In (CardSuggestion true (map index_text its) command) cards) /\
      let chosen := still_checked checked its in
      (chosen <> [] -> Forall (fun it => identifier (it_table it) /\ Forall identifier (it_cols it)) chosen ->
       exists argv2 out, shell_words senv command = Some (lit "gr" :: argv2) /\ out <> so_output o /\
         forall unix2 rnds2 env2 w2 tr2 w2' r2, gr unix2 rnds2 env2 argv2 w2 = (tr2, w2', r2) ->
           touches_only pg_create_sql pg_drop_sql (so_query o) chosen tr2 /\ writes_only out tr2 /\
           (r2 = Ok tt -> examines_just pg_create_sql pg_drop_sql (lit "EXPLAIN (ANALYZE, BUFFERS) ") (so_query o) out chosen tr2)).
  Proof.
    intros reserved coll cat unix rnds env argv st ws w tr w' format psrt checked senv o ST RN ON SV CO SU PS G.
    unfold WholeProgram.gr in G. rewrite ST in G. fold o in G. rewrite RN in G.
    assert (exists connection schema w1 inner w2, tr = AOpen connection :: inner ++ [AClose] /\
      pg_suggest_cmd sv fold so ord ordf srt unix rnds false (so_texts o) (so_query o) (so_output o) norm pg_parse schema w1 = (inner, w2, Ok tt)) as FIRST.
    { unfold pg_main in G. destruct (ConnText.pg_config_from_env env) as [c|m|]; [|discriminate|discriminate]. rewrite ProgramProofs.give_ok in G.
      unfold with_connection in G. destruct (on_open sv w _) as [w1 [e|]]; [discriminate|].
      destruct (pg_suggest_cmd sv fold so ord ordf srt unix rnds false (so_texts o) (so_query o) (so_output o) norm pg_parse (ConnText.search_path_or_public c) w1)
        as [[inner w2] r2] eqn:EC.
      injection G as <- _ ->. eexists. eexists. exists w1, inner, w2. split; [reflexivity|exact EC]. }
    destruct FIRST as (connection & schema & w1 & inner & w2 & -> & FIRST). clear G.
    destruct (ProgramPgProperties.pg_report sv norm fold so ord ordf srt unix rnds false (so_texts o) (so_query o) (so_output o) pg_parse
      Hso Ho Hof Hs reserved coll cat _ _ _ _ format psrt _ checked SV CO SU PS (PlanViewProperties.sort_bars_ok _) ON FIRST)
      as (before & b & w3 & rows & lines & nodes & summary & root & its & er & -> & _ & _ & _ & _ & WO & _ & -> & PAGE).
    destruct PAGE as (exam & BR & _); [discriminate|].
    set (command := build_command_text SubPostgres (still_checked checked its) (report_options SubPostgres false (so_output o) (so_query o) [])) in *.
    exists b, its, command. eexists. split; [|split; [exact BR|split]].
    - right. apply in_app_iff. left. apply in_app_iff. right. now left.
    - intros NI. apply in_app_iff. right. apply in_app_iff. right. apply in_app_iff. left. destruct its; [contradiction|]. now left.
    - intros chosen NE ID.
      destruct (offered senv SubPostgres its checked (so_output o) (so_query o) [] NE) as (argv2 & st2 & texts & out & SH & ST2 & OPT & TX & D & N).
      { eapply Forall_impl; [|exact WO]. intros it (_ & H & _). exact H. }
      { exact ID. }
      exists argv2, out. split; [exact SH|]. split; [exact D|].
      intros unix2 rnds2 env2 w4 tr2 w5 r2 G2. unfold WholeProgram.gr in G2. rewrite ST2 in G2. cbn [job_of] in G2. rewrite OPT in G2.
      cbn [so_runs so_texts so_query so_output] in G2.
      destruct (ProgramPgProperties.pg_conversation sv norm fold so ord ordf srt unix2 rnds2 true texts (so_query o) out pg_parse
        Hso Ho Hof Hs env2 w4 tr2 w5 r2 G2) as [(-> & F & _) | (c & cn & _ & _ & [(-> & F) | (inner2 & -> & C)])].
      + split; [intros s []|]. split; [intros p b0 []|]. intros ->. destruct (F tt). reflexivity.
      + split; [intros s [I | []]; discriminate|]. split; [intros p b0 [I | []]; discriminate|]. intros ->. destruct (F tt). reflexivity.
      + rewrite TX in C. apply and_assoc. split.
        { eapply run_bounded; [exact NE|exact N|right; reflexivity|intros _; exists r2; exact C]. }
         intros ->. eapply exam_ok; [exact NE|exact N|exact C].
  Qed.

  (** The same for Hasura: the same query is run with the same variables. *)
  Theorem hasura_next_run : forall reserved coll cat unix rnds env argv st ws w tr w' format psrt checked senv,
    let o := suggest_options_of st in
    start_of argv = Ok (Run HasuraPostgresCmd st ws) -> so_runs o = false -> so_output o <> [] ->
    HasuraReportProperties.hasura_serves hv unmarshal reserved coll cat -> (forall a b, coll a b = Eq <-> a = b) ->
    (forall sql root, pg_parse sql = Ok [root] -> PgSpec.supported norm PgProperties.public root /\ PgSpec.distinct root) ->
    (forall sql, exists t, format sql = Ok t) -> is_sort HandOver.faster psrt ->
    (forall v, parse_variables float unmarshal (so_variables o) = Ok v -> when_some (fun l => ordinary (JObj l)) v) ->
    gr unix rnds env argv w = (tr, w', Ok tt) ->
    exists v b its command cards,
      parse_variables float unmarshal (so_variables o) = Ok v /\
      In (AWrite (so_output o) b) tr /\ browse format psrt checked b = Ok cards /\
      (its <> [] -> In (CardSuggestion true (map index_text its) command) cards) /\
      let chosen := still_checked checked its in
      (chosen <> [] -> Forall (fun it => identifier (it_table it) /\ Forall identifier (it_cols it)) chosen ->
       exists argv2 out, shell_words senv command = Some (lit "gr" :: argv2) /\ out <> so_output o /\
         forall unix2 rnds2 env2 w2 tr2 w2' r2, gr unix2 rnds2 env2 argv2 w2 = (tr2, w2', r2) ->
           hasura_touches_only (so_query o) (variables_json v) out chosen tr2 /\
           (r2 = Ok tt -> hasura_examines_just (so_query o) (variables_json v) out chosen tr2)).
  Proof.
    intros reserved coll cat unix rnds env argv st ws w tr w' format psrt checked senv o ST RN ON SV CO SU FM PS VO G.
    unfold WholeProgram.gr in G. rewrite ST in G. fold o in G. rewrite RN in G.
    unfold hasura_main in G.
    destruct (parse_variables float unmarshal (so_variables o)) as [v|m|] eqn:PV;
      [rewrite ProgramProofs.give_ok in G|rewrite ProgramProofs.give_err in G; discriminate|rewrite ProgramProofs.give_panic in G; discriminate].
    destruct (ConnText.hasura_config_from_env parse_url env) as [c|m|];
      [rewrite ProgramProofs.give_ok in G|rewrite ProgramProofs.give_err in G; discriminate|rewrite ProgramProofs.give_panic in G; discriminate].
    destruct (HasuraReportProperties.hasura_report hv unmarshal kfold norm fold so ord ordf srt unix rnds pg_parse Hso Ho Hof Hs false (so_texts o) (so_query o)
      (so_variables o) (so_output o) v reserved coll cat _ _ _ format psrt _ checked SV CO SU PS (PlanViewProperties.sort_bars_ok _) ON (VO v eq_refl) G)
      as (before & b & w1 & ms & text & j & sql & lines & nodes & summary & root & its & er & -> & _ & _ & _ & _ & _ & WO & _ & -> & PAGE).
    destruct (FM sql) as [t FT]. destruct (PAGE t FT) as (exam & BR & _); [discriminate|].
    set (command := build_command_text SubHasura (still_checked checked its) (report_options SubHasura false (so_output o) (so_query o) (so_variables o))) in *.
    exists v, b, its, command. eexists. split; [reflexivity|]. split; [|split; [exact BR|split]].
    - apply in_app_iff. right. now left.
    - intros NI. apply in_app_iff. right. apply in_app_iff. right. apply in_app_iff. right. apply in_app_iff. left. destruct its; [contradiction|]. now left.
    - intros chosen NE ID.
      destruct (offered senv SubHasura its checked (so_output o) (so_query o) (so_variables o) NE) as (argv2 & st2 & texts & out & SH & ST2 & OPT & TX & D & N).
      { eapply Forall_impl; [|exact WO]. intros it (_ & H & _). exact H. }
      { exact ID. }
      exists argv2, out. split; [exact SH|]. split; [exact D|].
      intros unix2 rnds2 env2 w4 tr2 w5 r2 G2. unfold WholeProgram.gr in G2. rewrite ST2 in G2. cbn [job_of] in G2. rewrite OPT in G2.
      cbn [so_runs so_texts so_query so_variables so_output] in G2.
      destruct (HasuraProgramProperties.hasura_conversation hv unmarshal kfold norm fold so ord ordf srt unix2 rnds2 PgArray.array_in pg_parse
        Hso Ho Hof Hs true texts (so_query o) (so_variables o) out float parse_url env2 w4 tr2 w5 r2 G2) as [(-> & _ & F & _) | (v2 & PV2 & _ & _ & C)].
      + split; [intros h []|]. intros ->. destruct (F tt). reflexivity.
      + rewrite PV in PV2. injection PV2 as <-. rewrite TX in C. split.
        * intros h I. eapply hasura_exam_acts; [exact NE|exact C|exact I].
        * intros ->. eapply hasura_exam_ok; [exact NE|exact N|exact C].
  Qed.
End Whole.
Print Assumptions mysql_next_run.
Print Assumptions pg_next_run.
Print Assumptions hasura_next_run.
