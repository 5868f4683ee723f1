(** C140: every command with the options of its command line, as the grammar reads them. *)
From Coq Require Import String List NArith ZArith QArith Bool Lia Arith Permutation.
From Verif Require Import Base ExplainTree IndexText IndexBuild TableFields Lib Otel OtelSpec Pi PiSpec SqlServer Examiner SuggestCmd CommandLine CommandLineSpec CommandLineProofs
  CommandLineFacts CommandLineProperties Json HandOver Program ProgramSpec ProgramProperties HasuraProgram HasuraProgramSpec DigProgram DigProgramSpec WholeProgram WholeRun WholeRunSpec.
From Verif Require MysqlAst PgAst PgArray ConnText ProgramMyProperties ProgramPgProperties HasuraProgramProperties DigJaegerProperties DigPiProperties.
Import ListNotations.
Local Open Scope nat_scope.

Section Whole.
  Context {W : Type} (sv : world W) (low fold : rune -> rune) (norm : gostring -> gostring) (so : list gostring -> list gostring)
    (ord : order gostring) (ordf : order ifield) (srt : list index_target_table -> list index_target_table)
    (my_parse : gostring -> outcome (list MysqlAst.node)) (pg_parse : gostring -> outcome (list PgAst.node))
    (parse_int : gostring -> outcome Z) (q : gostring -> gostring) (q1 : rune -> gostring)
    (hv : hworld W) (unmarshal : gostring -> option jv) (kfold : rune -> rune) (float : Q -> option Q) (parse_url : gostring -> outcome unit)
    (ds : services W) (ords : nat -> nat -> list bytes -> list bytes) (srts : list (tree node) -> list (tree node))
    (ordc : list (gostring * Z) -> list (gostring * Z)) (ordv ordt : nat -> list (gostring * Z) -> list (gostring * Z))
    (srtt : list (Z * Z) -> list (Z * Z)) (parse_time : gostring -> outcome Z)
    (vadd : Q -> Q -> Q) (vlt : Q -> Q -> bool) (vzero : Q -> bool) (parse_gtime : gostring -> outcome gtime).
  Notation gr_run := (gr_run sv low fold norm so ord ordf srt my_parse pg_parse parse_int q q1 hv unmarshal kfold float parse_url
    ds ords srts ordc ordv ordt srtt parse_time vadd vlt vzero parse_gtime).

  (** the words behind the command read as these settings, all that is required is among
      them, and they do not ask for help *)
  Definition asked_of (j : job) (args : list gostring) (st : settings) : Prop :=
    (exists ws, reads parse_int (table j) args st ws) /\ ~ asks_help st /\ forall n, In n (required j) -> In n (map fst st).
  (** what the settings of a suggest command say *)
  Definition suggested (st : settings) (query output : gostring) (texts : list gostring) (runs : bool) : Prop :=
    last_given (lit "query") st query /\ last_given (lit "output") st output /\ all_given (lit "index") st texts /\
    (runs = true <-> exists v, last_given (lit "with-examine") st v /\ says_yes v).

  Lemma asked_starts : forall j args st, asked_of j args st -> exists ws, start_of parse_int q q1 root_cmd (path j ++ args) = Ok (Run j st ws).
  Proof.
    intros j args st ((ws & R) & NH & RQ). exists ws. apply command_line_exact. auto.
  Qed.

  Section Suggest.
    Context (Hso : forall l, Permutation (so l) l) (Ho : is_order ord) (Hof : is_order ordf) (Hs : is_sort itt_less srt).
    Theorem mysql_line : forall unix rnds now gnow env args st w tr w' r, asked_of MysqlCmd args st ->
      gr_run unix rnds now gnow env (path MysqlCmd ++ args) w = (tr, w', r) ->
      exists query output texts runs acts, suggested st query output texts runs /\ tr = map inl acts /\
        ((acts = [] /\ failed r /\ (env (lit "DB_USERNAME") = [] \/ env (lit "DB_DATABASE") = [])) \/
         exists c, ConnText.my_config_from_env env = Ok c /\
           ((acts = [AOpen (ConnText.to_dsn c)] /\ failed r) \/
            exists inner, acts = AOpen (ConnText.to_dsn c) :: inner ++ [AClose] /\
              conversation mysql_create_sql mysql_drop_sql (lit "EXPLAIN ANALYZE FORMAT=TREE ") query (env (lit "DB_DATABASE")) output runs
                (new_index_targets_from_texts texts) (ProgramMyProperties.my_reads low query my_parse)
                (fun b e => exists w1, snd (on_write sv w1 output b) = e) inner r)).
    Proof.
      intros unix rnds now gnow env args st w tr w' r A G. destruct (asked_starts _ _ _ A) as [ws ST].
      unfold WholeRun.gr_run, WholeProgram.gr in G. rewrite ST in G. unfold lifted in G.
      destruct (suggest_options_read parse_int q q1 _ _ _ _ ST ltac:(now left)) as (O1 & O2 & O3 & O4 & _).
      destruct (mysql_main _ _ _ _ _ _ _ _ _ _ _ _ _ _ _ _) as [[tr1 w1] r1] eqn:E. injection G as <- <- <-.
      eexists _, _, _, _, tr1. split; [split; [exact O1|split; [exact O2|split; [exact O3|exact O4]]]|]. split; [reflexivity|].
      destruct (ProgramMyProperties.mysql_conversation sv low fold so ord ordf srt unix rnds _ _ _ _ my_parse Hso Ho Hof Hs _ _ _ _ _ E)
        as [C | (c & cn & C1 & -> & C2)]; [now left|right; exists c; split; [exact C1|exact C2]].
    Qed.
    Theorem pg_line : forall unix rnds now gnow env args st w tr w' r, asked_of PostgresCmd args st ->
      gr_run unix rnds now gnow env (path PostgresCmd ++ args) w = (tr, w', r) ->
      exists query output texts runs acts, suggested st query output texts runs /\ tr = map inl acts /\
        ((acts = [] /\ failed r /\ (env (lit "DB_USERNAME") = [] \/ env (lit "DB_DATABASE") = [])) \/
         exists c, ConnText.pg_config_from_env env = Ok c /\
           ((acts = [AOpen (ConnText.kv_connection_string c)] /\ failed r) \/
            exists inner, acts = AOpen (ConnText.kv_connection_string c) :: inner ++ [AClose] /\
              conversation pg_create_sql pg_drop_sql (lit "EXPLAIN (ANALYZE, BUFFERS) ") query
                (match env (lit "DB_SEARCH_PATH") with [] => lit "public" | p => p end) output runs
                (new_index_targets_from_texts texts) (ProgramPgProperties.pg_reads norm query pg_parse)
                (fun b e => exists w1, snd (on_write sv w1 output b) = e) inner r)).
    Proof.
      intros unix rnds now gnow env args st w tr w' r A G. destruct (asked_starts _ _ _ A) as [ws ST].
      unfold WholeRun.gr_run, WholeProgram.gr in G. rewrite ST in G. unfold lifted in G.
      destruct (suggest_options_read parse_int q q1 _ _ _ _ ST ltac:(right; now left)) as (O1 & O2 & O3 & O4 & _).
      destruct (pg_main _ _ _ _ _ _ _ _ _ _ _ _ _ _ _ _) as [[tr1 w1] r1] eqn:E. injection G as <- <- <-.
      eexists _, _, _, _, tr1. split; [split; [exact O1|split; [exact O2|split; [exact O3|exact O4]]]|]. split; [reflexivity|].
      destruct (ProgramPgProperties.pg_conversation sv norm fold so ord ordf srt unix rnds _ _ _ _ pg_parse Hso Ho Hof Hs _ _ _ _ _ E)
        as [C | (c & cn & C1 & -> & C2)]; [now left|right; exists c; split; [exact C1|exact C2]].
    Qed.
    Theorem hasura_line : forall unix rnds now gnow env args st w tr w' r, asked_of HasuraPostgresCmd args st ->
      gr_run unix rnds now gnow env (path HasuraPostgresCmd ++ args) w = (tr, w', r) ->
      exists query output texts runs variables acts, suggested st query output texts runs /\
        worth (lit "json-variables") (lit "{}") st variables /\ tr = map inl acts /\
        ((acts = [] /\ w' = w /\ failed r /\
          (failed (parse_variables float unmarshal variables) \/ env (lit "HASURA_URL") = [] \/ failed (parse_url (env (lit "HASURA_URL"))) \/
           env (lit "HASURA_ADMIN_SECRET") = [])) \/
         exists v, parse_variables float unmarshal variables = Ok v /\ env (lit "HASURA_URL") <> [] /\ env (lit "HASURA_ADMIN_SECRET") <> [] /\
           hasura_talk query (variables_json v) output runs (new_index_targets_from_texts texts)
             (HasuraProgramProperties.hasura_reads hv unmarshal kfold norm pg_parse query w v)
             (fun b e => exists w1, snd (h_write hv w1 output b) = e) (map hear acts) r).
    Proof.
      intros unix rnds now gnow env args st w tr w' r A G. destruct (asked_starts _ _ _ A) as [ws ST].
      unfold WholeRun.gr_run, WholeProgram.gr in G. rewrite ST in G. unfold lifted in G.
      destruct (suggest_options_read parse_int q q1 _ _ _ _ ST ltac:(right; right; now left)) as (O1 & O2 & O3 & O4 & O5).
      destruct (hasura_main _ _ _ _ _ _ _ _ _ _ _ _ _ _ _ _ _ _ _ _ _ _) as [[tr1 w1] r1] eqn:E. injection G as <- <- <-.
      eexists _, _, _, _, _, tr1. split; [split; [exact O1|split; [exact O2|split; [exact O3|exact O4]]]|]. split; [exact O5|]. split; [reflexivity|].
      exact (HasuraProgramProperties.hasura_conversation hv unmarshal kfold norm fold so ord ordf srt unix rnds PgArray.array_in pg_parse
          Hso Ho Hof Hs _ _ _ _ _ float parse_url _ _ _ _ _ E).
    Qed.
  End Suggest.

  (** Jaeger: the count of the line must fit the 32 bits of the request and its
      milliseconds the range of a duration (else: C112) *)
  Theorem jaeger_line : (forall i k, any_order (ords i k)) -> is_sort start_less srts -> any_order ordc ->
    (forall i, any_order (ordv i)) -> (forall i, any_order (ordt i)) ->
    forall unix rnds now gnow env args st w tr w' r, asked_of JaegerCmd args st ->
    gr_run unix rnds now gnow env (path JaegerCmd ++ args) w = (tr, w', r) ->
    exists fl exs, last_given (lit "service-name") st (jf_service fl) /\ last_given (lit "output") st (jf_output fl) /\
      counts parse_int (lit "min-duration-millisecond") 1000 st (jf_millis fl) /\
      counts parse_int (lit "same-service-threshold") 5 st (jf_threshold fl) /\
      counts parse_int (lit "count") 500 st (jf_count fl) /\ worth (lit "start-from") [] st (jf_start fl) /\
      tr = map inr exs /\ answered_by ds w exs w' /\
      ((- 2 ^ 31 <= jf_count fl < 2 ^ 31)%Z -> (- 9223372036854 <= jf_millis fl <= 9223372036854)%Z ->
       jaeger_talk parse_time env now fl (jaeger_report srtt (env (lit "JAEGER_UI_URL")) fl) exs r).
  Proof.
    intros Ho Hs Hc Hv Ht unix rnds now gnow env args st w tr w' r A G. destruct (asked_starts _ _ _ A) as [ws ST].
    unfold WholeRun.gr_run in G. rewrite ST in G. unfold lifted in G.
    destruct (dig_options_read parse_int q q1 (path JaegerCmd ++ args) st ws) as [D _]. destruct (D ST) as (O1 & O2 & O3 & O4 & O5 & O6).
    destruct (jaeger_main _ _ _ _ _ _ _ _ _ _ _ _) as [[tr1 w1] r1] eqn:E. injection G as <- <- <-.
    eexists _, tr1. split; [|split; [|split; [|split; [|split; [|split; [|split; [reflexivity|split]]]]]]].
    8:{ intros HC HM. exact (proj2 (DigJaegerProperties.jaeger_talks _ _ _ _ _ _ _ _ _ _ _ HC HM Ho Hs Hc Hv Ht _ _ _ _ E)). }
    all: cbn [jf_service jf_output jf_millis jf_threshold jf_count jf_start]; auto.
    eapply DigJaegerProperties.jaeger_chained. exact E.
  Qed.
  Theorem insights_line : weak_order vlt ->
    forall unix rnds now gnow env args st w tr w' r, asked_of InsightsCmd args st ->
    gr_run unix rnds now gnow env (path InsightsCmd ++ args) w = (tr, w', r) ->
    exists start output exs, worth (lit "start-from") [] st start /\ last_given (lit "output") st output /\
      tr = map inr exs /\ answered_by ds w exs w' /\ pi_talk vadd vlt vzero parse_gtime gnow start output exs r.
  Proof.
    intros WO unix rnds now gnow env args st w tr w' r A G. destruct (asked_starts _ _ _ A) as [ws ST].
    unfold WholeRun.gr_run in G. rewrite ST in G. unfold lifted in G.
    destruct (dig_options_read parse_int q q1 (path InsightsCmd ++ args) st ws) as [_ D]. destruct (D ST) as (O1 & O2).
    destruct (pi_main _ _ _ _ _ _ _ _ _) as [[tr1 w1] r1] eqn:E. injection G as <- <- <-.
    eexists _, _, tr1. split; [exact O1|]. split; [exact O2|]. split; [reflexivity|].
    exact (DigPiProperties.pi_talks _ _ _ _ _ _ _ _ WO _ _ _ _ E).
  Qed.
  (** the others do nothing *)
  Theorem print_line : forall j unix rnds now gnow env args st w tr w' r, In j [VersionCmd; HelpCmd; CompletionCmd] -> asked_of j args st ->
    gr_run unix rnds now gnow env (path j ++ args) w = (tr, w', r) -> tr = [] /\ w' = w /\ r = Ok tt.
  Proof.
    intros j unix rnds now gnow env args st w tr w' r J A G. destruct (asked_starts _ _ _ A) as [ws ST].
    unfold WholeRun.gr_run, WholeProgram.gr in G. rewrite ST in G. unfold lifted in G.
    destruct J as [<- | [<- | [<- | []]]]; cbn in G; injection G as <- <- <-; auto.
  Qed.
End Whole.
Print Assumptions mysql_line.
Print Assumptions pg_line.
Print Assumptions hasura_line.
Print Assumptions jaeger_line.
Print Assumptions insights_line.
Print Assumptions print_line.
