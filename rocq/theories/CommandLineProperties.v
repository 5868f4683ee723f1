(** C135 and C136: what the words of a command line make the program do. *)
From Coq Require Import String List NArith ZArith Bool Lia Arith Permutation.
From Verif Require Import Base IndexText IndexTextSpec CommandText CommandTextSpec CommandTextProperties DigCommand DigCommandSpec DigCommandProperties
  CommandLine CommandLineSpec CommandLineProofs CommandLineFacts.
Import ListNotations.

Section Line.
  Context (parse_int : gostring -> outcome Z) (q : gostring -> gostring) (q1 : rune -> gostring).
  Notation start_of := (start_of parse_int q q1 root_cmd).

  (** What follows the name of a command is understood exactly by the grammar and the table of
      options: the command runs if and only if the words read so, no help is asked for, and
      everything required is given; and then it runs with just what was read. *)
  Theorem command_line_exact : forall j args j' st ws,
    start_of (path j ++ args) = Ok (Run j' st ws) <->
    j' = j /\ reads parse_int (table j) args st ws /\ ~ asks_help st /\ (forall n, In n (required j) -> In n (map fst st)).
  Proof.
    intros j args j' st ws. unfold CommandLine.start_of. rewrite find_path.
    assert ((match strip_flags (flags_at j) args with
             | [] => Ok tt
             | w :: _ => if seqb (cmd_name (leaf j)) (cmd_name root_cmd) && negb (match cmd_subs (leaf j) with [] => true | _ => false end)
                         then Err (lit "unknown command " ++ q w ++ lit " for " ++ q (cmd_name root_cmd)) else Ok tt
             end) = Ok tt) as ->.
    { destruct (strip_flags _ _); [reflexivity|]. destruct j; reflexivity. }
    cbn [obind]. destruct (flags_table j) as [T1 T2].
    assert (cmd_runs (leaf j) = Some j) as -> by (destruct j; reflexivity).
    rewrite <- (flags_required j st), <- missing_nil.
    assert (~ asks_help st <-> bool_of (lit "help") st = false) as ->.
    { unfold asks_help. rewrite <- bool_of_yes, not_true_iff_false. reflexivity. }
    split.
    - destruct (CommandLine.parse_args _ _ _ _ _) as [[st' ws']| |] eqn:P; try discriminate. cbn [obind fst snd].
      destruct (bool_of (lit "help") st') eqn:H; [discriminate|].
      destruct (missing_flags (flags_at j) st') eqn:M; [|discriminate]. intros E. injection E as <- -> ->.
      split; [reflexivity|]. split; [|split; assumption].
      eapply reads_cover; [exact T1|]. eapply parse_args_sound; [apply flags_distinct|reflexivity|exact P].
    - intros (-> & R & H & M). apply (reads_cover _ _ _ T2) in R.
      rewrite (parse_args_complete parse_int q q1 _ (flags_distinct j) _ _ _ R). cbn [obind fst snd]. now rewrite H, M.
  Qed.

  (** The help text is shown exactly if the words read and ask for it. *)
  Theorem help_exact : forall j args,
    start_of (path j ++ args) = Ok ShowHelp <-> exists st ws, reads parse_int (table j) args st ws /\ asks_help st.
  Proof.
    intros j args. unfold CommandLine.start_of. rewrite find_path.
    assert ((match strip_flags (flags_at j) args with
             | [] => Ok tt
             | w :: _ => if seqb (cmd_name (leaf j)) (cmd_name root_cmd) && negb (match cmd_subs (leaf j) with [] => true | _ => false end)
                         then Err (lit "unknown command " ++ q w ++ lit " for " ++ q (cmd_name root_cmd)) else Ok tt
             end) = Ok tt) as ->.
    { destruct (strip_flags _ _); [reflexivity|]. destruct j; reflexivity. }
    cbn [obind]. destruct (flags_table j) as [T1 T2].
    assert (cmd_runs (leaf j) = Some j) as -> by (destruct j; reflexivity).
    split.
    - destruct (CommandLine.parse_args _ _ _ _ _) as [[st ws]| |] eqn:P; try discriminate. cbn [obind fst snd].
      destruct (bool_of (lit "help") st) eqn:H; [|destruct (missing_flags (flags_at j) st); discriminate]. intros _. exists st, ws.
      split; [|now apply bool_of_yes]. eapply reads_cover; [exact T1|]. eapply parse_args_sound; [apply flags_distinct|reflexivity|exact P].
    - intros (st & ws & R & H). apply (reads_cover _ _ _ T2) in R. rewrite (parse_args_complete parse_int q q1 _ (flags_distinct j) _ _ _ R).
      cbn [obind fst snd]. apply bool_of_yes in H. now rewrite H.
  Qed.

  (** However the words are arranged (options before the names of the commands and so on):
      a command that runs was named and was given everything it requires. *)
  Theorem runs_only_complete : forall argv j st ws, start_of argv = Ok (Run j st ws) ->
    (exists args, Permutation argv (path j ++ args) /\ reads parse_int (table j) args st ws) /\ ~ asks_help st /\ forall n, In n (required j) -> exists v, last_given n st v.
  Proof.
    intros argv j st ws. unfold CommandLine.start_of. destruct (find_cmd [] root_cmd argv) as [[c fs] args] eqn:F.
    destruct (match strip_flags fs args with [] => _ | _ => _ end) as [u| |]; try discriminate. cbn [obind].
    destruct (CommandLine.parse_args _ _ _ _ _) as [[st' ws']| |] eqn:P; try discriminate. cbn [obind fst snd].
    destruct (bool_of (lit "help") st') eqn:H; [discriminate|].
    destruct (cmd_runs c) as [j'|] eqn:R; [|discriminate].
    destruct (found_job _ _ _ _ _ F R) as (-> & -> & PM).
    destruct (missing_flags (flags_at j') st') eqn:M; [|discriminate]. intros E. injection E as -> -> ->.
    split; [|split].
    - exists args. split; [exact PM|]. destruct (flags_table j) as [T1 _].
      eapply reads_cover; [exact T1|]. eapply parse_args_sound; [apply flags_distinct|reflexivity|exact P].
    - unfold asks_help. rewrite <- bool_of_yes, not_true_iff_false. exact H.
    - intros n I. rewrite missing_nil in M. pose proof (proj1 (flags_required j st) M n I) as G.
      destruct (last_or n st) as [L | N]; [exact L|contradiction].
  Qed.

  (** The variables that the suggest commands run with *)
  Theorem suggest_options_read : forall argv j st ws, start_of argv = Ok (Run j st ws) ->
    In j [MysqlCmd; PostgresCmd; HasuraPostgresCmd] ->
    let o := suggest_options_of st in
    last_given (lit "query") st (so_query o) /\ last_given (lit "output") st (so_output o) /\
    all_given (lit "index") st (so_texts o) /\
    (so_runs o = true <-> exists v, last_given (lit "with-examine") st v /\ says_yes v) /\
    worth (lit "json-variables") (lit "{}") st (so_variables o).
  Proof.
    intros argv j st ws R J. apply runs_only_complete in R as (_ & _ & REQ). cbn [suggest_options_of so_query so_output so_texts so_runs so_variables].
    assert (forall n d, In n (required j) -> last_given n st (string_of n d st)) as G.
    { intros n d I. destruct (REQ n I) as [v L]. destruct (string_of_worth n d st) as [L' | [N _]]; [exact L'|].
      destruct N. eapply last_given_in; eauto. }
    assert (required j = [lit "output"; lit "query"]) as RQ.
    { destruct J as [<- | [<- | [<- | []]]]; reflexivity. }
    split; [apply G; rewrite RQ; right; now left|]. split; [apply G; rewrite RQ; now left|].
    split; [apply values_all|]. split; [apply bool_of_yes|apply string_of_worth].
  Qed.

  Lemma reads_fit : forall fs args st ws, reads parse_int fs args st ws ->
    forall n v, In (n, v) st -> exists f, In f fs /\ fl_name f = n /\ fits parse_int f v.
  Proof.
    intros fs. assert (forall s nx st, group parse_int fs s nx st -> forall n v, In (n, v) st -> exists f, In f fs /\ fl_name f = n /\ fits parse_int f v) as G.
    { induction 1 as [|r|c f r nx st NT [I L] K NJ G IH|c f d v NT [I L] FI|c f d v NT [I L] K NJ FI|c f v [I L] K FI]; intros n w IN;
        try (destruct IN as [[= <- <-] | []]; eauto; fail); try (destruct IN; fail).
      destruct IN as [E | IN]; [|eauto]. injection E as <- <-. exists f. split; [exact I|]. split; [reflexivity|].
      unfold fits. rewrite K. cbn [In]. auto 6. }
    induction 1 as [|w args st ws P R IH|args|f v args st ws I FI R IH|f args st ws I K R IH|f v args st ws I K FI R IH
                    |c r set args st ws NC GR R IH|c r v set args st ws NC GR R IH]; intros n u IN; auto; try (destruct IN; fail).
    - destruct IN as [[= <- <-] | IN]; eauto.
    - destruct IN as [E | IN]; [|eauto]. injection E as <- <-. exists f. split; [exact I|]. split; [reflexivity|].
      unfold fits. rewrite K. cbn [In]. auto 6.
    - destruct IN as [[= <- <-] | IN]; eauto.
    - apply in_app_iff in IN as [IN | IN]; eauto.
    - apply in_app_iff in IN as [IN | IN]; eauto.
  Qed.

  (** The variables that the dig commands run with *)
  Theorem dig_options_read : forall argv st ws,
    (start_of argv = Ok (Run JaegerCmd st ws) ->
     let o := jaeger_options_of parse_int st in
     last_given (lit "service-name") st (do_service o) /\ last_given (lit "output") st (do_output o) /\
     counts parse_int (lit "min-duration-millisecond") 1000 st (do_millis o) /\
     counts parse_int (lit "same-service-threshold") 5 st (do_threshold o) /\
     counts parse_int (lit "count") 500 st (do_count o) /\ worth (lit "start-from") [] st (do_start o)) /\
    (start_of argv = Ok (Run InsightsCmd st ws) ->
     worth (lit "start-from") [] st (fst (insights_options_of st)) /\ last_given (lit "output") st (snd (insights_options_of st))).
  Proof.
    intros argv st ws. split; intros R; apply runs_only_complete in R as ((args & _ & R) & _ & REQ).
    - assert (forall n d, In n (required JaegerCmd) -> last_given n st (string_of n d st)) as G.
      { intros n d I. destruct (REQ n I) as [v L]. destruct (string_of_worth n d st) as [L' | [N _]]; [exact L'|].
        destruct N. eapply last_given_in; eauto. }
      assert (forall n d, (forall f, In f (table JaegerCmd) -> fl_name f = n -> fl_kind f = KInt) -> counts parse_int n d st (int_of parse_int n d st)) as C.
      { intros n d K. unfold counts, int_of. destruct (last_or n st) as [[v L] | N].
        - left. exists v. split; [exact L|]. pose proof L as (b & a & E & _).
          destruct (reads_fit _ _ _ _ R n v) as (f & I & E' & FI).
          { rewrite E. apply in_app_iff. right. now left. }
          unfold fits in FI. rewrite (K f I E') in FI. destruct FI as [z Z].
          apply last_given_values in L as [l ->]. destruct (l ++ [v]) as [|x l'] eqn:X; [destruct l; discriminate|].
          rewrite <- X, last_last, Z. reflexivity.
        - right. split; [exact N|]. apply values_in in N as ->. reflexivity. }
      cbn [jaeger_options_of do_service do_output do_millis do_threshold do_count do_start].
      assert (forall n, forallb (fun f => negb (seqb (fl_name f) n) || match fl_kind f with KInt => true | _ => false end) (table JaegerCmd) = true ->
        forall f, In f (table JaegerCmd) -> fl_name f = n -> fl_kind f = KInt) as KI.
      { intros n B f I E. rewrite forallb_forall in B. apply B in I. rewrite E, seqb_refl in I. destruct (fl_kind f); try discriminate. reflexivity. }
      split; [apply G; right; now left|]. split; [apply G; now left|].
      split; [apply C, KI; reflexivity|]. split; [apply C, KI; reflexivity|]. split; [apply C, KI; reflexivity|]. apply string_of_worth.
    - split; [apply string_of_worth|]. cbn [insights_options_of snd]. destruct (REQ (lit "output")) as [v L]; [now left|].
      destruct (string_of_worth (lit "output") [] st) as [L' | [N _]]; [exact L'|]. destruct N. eapply last_given_in; eauto.
  Qed.

  (** ** The commands that the reports offer *)
  Definition job_of (k : sub_command) : job := match k with SubMysql => MysqlCmd | SubPostgres => PostgresCmd | SubHasura => HasuraPostgresCmd end.

  (** The command that a suggest report offers, typed into a shell, runs the same command of
      the program with examination, for the targets of the report, the same query and
      variables, and another output file (the same one if the run examined): whatever the texts are, even if they begin with a
      dash or look like options. *)
  Theorem offered_command_understood : forall env k runs targets output query variables,
    targets <> [] ->
    Forall (fun it => identifier (it_table it) /\ it_cols it <> [] /\ Forall identifier (it_cols it)) targets ->
    exists argv st texts out,
      shell_words env (build_command_text k targets (report_options k runs output query variables)) = Some (lit "gr" :: argv) /\
      start_of argv = Ok (Run (job_of k) st []) /\
      suggest_options_of st =
        {| so_runs := true; so_texts := texts; so_query := query;
           so_variables := match k with SubHasura => variables | _ => lit "{}" end; so_output := out |} /\
      new_index_targets_from_texts texts = Ok targets /\ (if runs then out = output else out <> output /\ out <> []).
  Proof.
    intros env k runs targets output query variables NE HT.
    destruct (offered_command_round_trip env k runs targets output query variables NE HT) as (texts & out & SH & TX & OUT).
    set (rest := [lit "--with-examine"] ++ flat_map (fun t => [lit "-i"; t]) texts ++ [lit "-o"; out; lit "-q"; query] ++
          match k with SubHasura => [lit "--json-variables"; variables] | _ => [] end).
    set (st := (lit "with-examine", lit "true") :: map (fun t => (lit "index", t)) texts ++
          [(lit "output", out); (lit "query", query)] ++ match k with SubHasura => [(lit "json-variables", variables)] | _ => [] end).
    exists (path (job_of k) ++ rest), st, texts, out.
    assert (forall n s kd, In (n, s, kd) (options (job_of k)) -> In (mk_flag n s kd false) (table (job_of k))) as IT.
    { intros n s kd I. unfold table. apply (in_map (fun o => mk_flag (fst (fst o)) (snd (fst o)) (snd o) false)) in I. exact I. }
    assert (forall o, In o suggesting -> In o (options (job_of k))) as IS.
    { intros o I. unfold options. apply in_app_iff. right. destruct k; cbn [job_of]; [exact I|exact I|]. apply in_app_iff. now left. }
    split; [|split; [|split; [|split; assumption]]].
    - rewrite SH. destruct k; reflexivity.
    - apply command_line_exact. split; [reflexivity|]. split; [|split].
      + unfold rest, st. apply (r_switch parse_int _ (mk_flag (lit "with-examine") None KBool false)); [apply IT, IS; cbn [In suggesting]; auto|reflexivity|].
        clear TX SH rest st. induction texts as [|t texts IH]; cbn [flat_map map app].
        * apply (r_group_next parse_int _ 111%N [] out [(lit "output", out)]); [discriminate| |].
          { apply (g_next parse_int _ _ (mk_flag (lit "output") (Some 111%N) KString false)); [|discriminate|exact Logic.I].
            split; [apply IT, IS; cbn [In suggesting]; auto|reflexivity]. }
          apply (r_group_next parse_int _ 113%N [] query [(lit "query", query)]); [discriminate| |].
          { apply (g_next parse_int _ _ (mk_flag (lit "query") (Some 113%N) KString false)); [|discriminate|exact Logic.I].
            split; [apply IT, IS; cbn [In suggesting]; auto|reflexivity]. }
          destruct k; [constructor|constructor|].
          apply (r_value parse_int _ (mk_flag (lit "json-variables") None KString false)); [|discriminate|exact Logic.I|constructor].
          apply IT. unfold options. apply in_app_iff. right. apply in_app_iff. right. now left.
        * apply (r_group_next parse_int _ 105%N [] t [(lit "index", t)]); [discriminate| |exact IH].
          apply (g_next parse_int _ _ (mk_flag (lit "index") (Some 105%N) KArray false)); [|discriminate|exact Logic.I].
          split; [apply IT, IS; cbn [In suggesting]; auto|reflexivity].
      + intros (v & L & _). apply last_given_in in L. unfold st in L. cbn [map fst] in L. rewrite !map_app, map_map in L.
        destruct L as [L | L]; [discriminate|]. apply in_app_iff in L as [L | L].
        * apply in_map_iff in L as (t & E & _). discriminate.
        * destruct k; cbn [map fst app] in L; repeat destruct L as [L | L]; try discriminate; destruct L.
      + intros n I. unfold st. cbn [map fst]. rewrite !map_app. right. apply in_app_iff. right. apply in_app_iff. left.
        destruct k; exact I.
    - assert (forall n, n <> lit "index" -> values n (map (fun t => (lit "index", t)) texts) = []) as VI.
      { intros n N. apply values_in. rewrite map_map. cbn [fst]. intros I. apply in_map_iff in I as (t & E & _). congruence. }
      assert (forall n v r, values n ((n, v) :: r) = v :: values n r) as VC.
      { intros n v r. unfold values. cbn [filter fst]. now rewrite seqb_refl. }
      assert (forall n m v r, m <> n -> values n ((m, v) :: r) = values n r) as VN.
      { intros n m v r N. unfold values. cbn [filter fst]. apply seqb_neq in N. now rewrite N. }
      assert (values (lit "index") (map (fun t => (lit "index", t)) texts) = texts) as VX.
      { clear. induction texts as [|t texts IH]; [reflexivity|]. cbn [map]. unfold values in *. cbn [filter fst]. rewrite seqb_refl. cbn [map snd]. now rewrite IH. }
      unfold suggest_options_of, bool_of, string_of, st. f_equal.
      + rewrite VC, values_app, VI by discriminate. destruct k; reflexivity.
      + rewrite VN by discriminate. rewrite values_app, VX. rewrite <- (app_nil_r texts) at 2. f_equal. destruct k; reflexivity.
      + rewrite VN by discriminate. rewrite values_app, VI by discriminate. destruct k; reflexivity.
      + rewrite VN by discriminate. rewrite values_app, VI by discriminate. destruct k; reflexivity.
      + rewrite VN by discriminate. rewrite values_app, VI by discriminate. destruct k; reflexivity.
  Qed.

  (** The command that the Performance Insights page offers names no database: it is refused
      for every SQL, so it never runs anything. *)
  Theorem dig_command_refused : forall env db sql,
    (forall d, db = Some d -> quote_safe d) -> (forall s, sql = Some s -> quote_safe s) ->
    exists value argv,
      runs_with env (dig_command db sql) (lit "DB_DATABASE") value (lit "gr" :: argv) /\
      start_of argv = Err (lit "unknown shorthand flag: " ++ q1 113%N ++ lit " in -q").
  Proof.
    intros env db sql HD HS. eexists. eexists. split; [apply (dig_command_survives_shell env db sql HD HS)|].
    destruct sql as [s|]; reflexivity.
  Qed.

  (** ** Two ways to be misunderstood *)
  Lemma reads_app : forall fs args st ws w, reads parse_int fs args st ws -> plain w -> reads parse_int fs (args ++ [w]) st (ws ++ [w]).
  Proof.
    intros fs args st ws w R P.
    induction R as [|x args st ws PX R IH|args|f v args st ws I FI R IH|f args st ws I K R IH|f v args st ws I K FI R IH
                    |c r set args st ws NC GR R IH|c r v set args st ws NC GR R IH]; cbn [app].
    - apply r_plain; [exact P|constructor].
    - now apply r_plain.
    - constructor.
    - now apply r_equals.
    - now apply r_switch.
    - now apply r_value.
    - now apply r_group.
    - now apply r_group_next.
  Qed.
  (** words that are no options are ignored: a query without quotes is cut after its first
      word, and a switch set to a separate word false is still on *)
  Theorem extra_words_ignored : forall j args st ws w, plain w ->
    start_of (path j ++ args) = Ok (Run j st ws) -> start_of (path j ++ args ++ [w]) = Ok (Run j st (ws ++ [w])).
  Proof.
    intros j args st ws w P R. apply command_line_exact in R as (_ & R & H & G). apply command_line_exact.
    split; [reflexivity|]. split; [|split; assumption]. now apply reads_app.
  Qed.
End Line.

Definition no_int : gostring -> outcome Z := fun _ => Err (lit "invalid syntax").
Definition quoted (s : gostring) : gostring := lit """" ++ s ++ lit """".
Definition quoted1 (c : rune) : gostring := lit "'" ++ [c] ++ lit "'".
Notation try_line := (start_of no_int quoted quoted1 root_cmd).

(** README.md:59-62 *)
Example command_line_exact_ex :
  try_line (path MysqlCmd ++ [lit "--with-examine"; lit "-vo"; lit "example/mysql.html"; lit "-q=SELECT -- 1"; lit "-it:a+b"]) =
  Ok (Run MysqlCmd [(lit "with-examine", lit "true"); (lit "verbose", lit "true"); (lit "output", lit "example/mysql.html");
                    (lit "query", lit "SELECT -- 1"); (lit "index", lit "t:a+b")] []) /\
  try_line (path MysqlCmd ++ [lit "-q"; lit "SELECT 1"]) = Err (lit "required flag(s) ""output"" not set") /\
  try_line (path JaegerCmd) = Err (lit "required flag(s) ""output"", ""service-name"" not set") /\
  try_line (path JaegerCmd ++ [lit "-h"]) = Ok ShowHelp /\
  try_line (path MysqlCmd ++ [lit "--queries"; lit "x"]) = Err (lit "unknown flag: --queries") /\
  try_line [lit "dbs"] = Err (lit "unknown command ""dbs"" for ""gr""") /\
  try_line [lit "db"; lit "suggest"] = Ok ShowHelp.
Proof. repeat apply conj; reflexivity. Qed.
Example help_exact_ex :
  try_line (path MysqlCmd ++ [lit "-q"; lit "-h"; lit "--help=1"]) = Ok ShowHelp /\
  try_line (path MysqlCmd ++ [lit "-q"; lit "-h"]) = Err (lit "required flag(s) ""output"" not set") /\
  try_line (path MysqlCmd ++ [lit "-h"; lit "--queries"; lit "x"]) = Err (lit "unknown flag: --queries").
Proof. repeat apply conj; reflexivity. Qed.
Example runs_only_complete_ex :
  try_line [lit "-v"; lit "db"; lit "-o"; lit "suggest"; lit "suggest"; lit "-q"; lit "x"; lit "mysql"] =
  Ok (Run MysqlCmd [(lit "verbose", lit "true"); (lit "output", lit "suggest"); (lit "query", lit "x")] []).
Proof. reflexivity. Qed.
Example suggest_options_read_ex :
  suggest_options_of [(lit "index", lit "t:a"); (lit "query", lit "a"); (lit "with-examine", lit "T"); (lit "output", lit "o");
                      (lit "query", lit "b"); (lit "index", lit "t:b")] =
  {| so_runs := true; so_texts := [lit "t:a"; lit "t:b"]; so_query := lit "b"; so_variables := lit "{}"; so_output := lit "o" |}.
Proof. reflexivity. Qed.
Example dig_options_read_ex :
  match start_of (fun s => if seqb s (lit "-3") then Ok (-3)%Z else Ok 7%Z) quoted quoted1 root_cmd
          [lit "app"; lit "dig"; lit "jaeger"; lit "-o"; lit "x"; lit "-s"; lit "bff"; lit "-c"; lit "-3"; lit "-d7"] with
  | Ok (Run JaegerCmd st []) => jaeger_options_of (fun s => if seqb s (lit "-3") then Ok (-3)%Z else Ok 7%Z) st
  | _ => {| do_service := []; do_millis := 0; do_threshold := 0; do_count := 0; do_start := []; do_output := [] |}
  end = {| do_service := lit "bff"; do_millis := 7; do_threshold := 5; do_count := -3; do_start := []; do_output := lit "x" |}.
Proof. reflexivity. Qed.
Example offered_command_understood_ex :
  try_line [lit "db"; lit "suggest"; lit "hasura"; lit "postgres"; lit "--with-examine"; lit "-i"; lit "t:a"; lit "-o"; lit "-o";
            lit "-q"; lit "--"; lit "--json-variables"; lit "-q"] =
  Ok (Run HasuraPostgresCmd [(lit "with-examine", lit "true"); (lit "index", lit "t:a"); (lit "output", lit "-o"); (lit "query", lit "--");
                             (lit "json-variables", lit "-q")] []).
Proof. reflexivity. Qed.
Example dig_command_refused_ex :
  try_line [lit "db"; lit "suggest"; lit "-o"; lit "suggest.html"; lit "-q"; lit "SELECT 1"] = Err (lit "unknown shorthand flag: 'q' in -q").
Proof. reflexivity. Qed.
Example extra_words_ignored_ex :
  try_line [lit "db"; lit "suggest"; lit "mysql"; lit "-o"; lit "a.html"; lit "--with-examine"; lit "false"; lit "-q"; lit "SELECT"; lit "1"] =
  Ok (Run MysqlCmd [(lit "output", lit "a.html"); (lit "with-examine", lit "true"); (lit "query", lit "SELECT")] [lit "false"; lit "1"]) /\
  so_runs (suggest_options_of [(lit "output", lit "a.html"); (lit "with-examine", lit "true"); (lit "query", lit "SELECT")]) = true /\
  plain (lit "false").
Proof. split; [reflexivity|]. split; [reflexivity|]. right. right. exists 102%N, (lit "alse"). split; [reflexivity|discriminate]. Qed.

Print Assumptions command_line_exact.
Print Assumptions help_exact.
Print Assumptions runs_only_complete.
Print Assumptions suggest_options_read.
Print Assumptions dig_options_read.
Print Assumptions offered_command_understood.
Print Assumptions dig_command_refused.
Print Assumptions extra_words_ignored.
