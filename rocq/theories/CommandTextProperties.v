(** C50, C51 and C75. *)
From Coq Require Import String List NArith Bool Lia Arith.
From Verif Require Import Base IndexText IndexTextSpec IndexTextProofs IndexTextProperties CommandText CommandTextSpec CommandTextProofs.
Import ListNotations.

(** C50: every name has its parts, in one way only, and the offered name has the same
    directory and extension and the stem with _examine after it. *)
Theorem examine_output_parts : forall f, exists dir stem ext,
  file_parts f dir stem ext /\
  (forall d s x, file_parts f d s x -> d = dir /\ s = stem /\ x = ext) /\
  co_value (create_output_option true f) = dir ++ stem ++ lit "_examine" ++ ext /\
  file_parts (co_value (create_output_option true f)) dir (stem ++ lit "_examine") ext.
Proof.
  intros f. destruct (file_parts_exist f) as (dir & stem & ext & H). exists dir, stem, ext.
  split; [exact H|]. split; [intros d s x H2; exact (file_parts_unique _ _ _ _ _ _ _ H2 H)|].
  rewrite (output_value _ _ _ _ H). split; [now rewrite <- app_assoc|]. exact (file_parts_examine _ _ _ _ H).
Qed.
Example examine_output_parts_ex :
  file_parts (lit "out.d/a.b.html") (lit "out.d/") (lit "a.b") (lit ".html") /\
  co_value (create_output_option true (lit "out.d/a.b.html")) = lit "out.d/a.b_examine.html" /\
  co_value (create_output_option true (lit "out.d/plain")) = lit "out.d/plain_examine" /\
  co_value (create_output_option true (lit ".html")) = lit "_examine.html".
Proof.
  split; [|split; [|split]; reflexivity].
  split; [reflexivity|]. split; [right; exists (lit "out.d"); reflexivity|].
  split; [cbn; intuition discriminate|]. split; [cbn; intuition discriminate|].
  right. exists (lit "html"). split; [reflexivity|cbn; intuition discriminate].
Qed.
Print Assumptions examine_output_parts.

Theorem examine_output_differs : forall f,
  co_value (create_output_option true f) <> f /\
  length (co_value (create_output_option true f)) = length f + 8.
Proof.
  intros f. destruct (file_parts_exist f) as (dir & stem & ext & H).
  assert (length (co_value (create_output_option true f)) = length f + 8) as L.
  { rewrite (output_value _ _ _ _ H). destruct H as (-> & _). rewrite !app_length.
    change (length (lit "_examine")) with 8. lia. }
  split; [|exact L]. intros E. rewrite E in L. lia.
Qed.
Example examine_output_differs_ex : co_value (create_output_option true (lit "a_examine.html")) = lit "a_examine_examine.html".
Proof. reflexivity. Qed.
Print Assumptions examine_output_differs.

Theorem examine_output_injective : forall f g,
  co_value (create_output_option true f) = co_value (create_output_option true g) -> f = g.
Proof.
  intros f g E.
  destruct (file_parts_exist f) as (d & s & x & H), (file_parts_exist g) as (d' & s' & x' & H').
  pose proof (file_parts_examine _ _ _ _ H) as P. pose proof (file_parts_examine _ _ _ _ H') as P'.
  rewrite <- (output_value _ _ _ _ H) in P. rewrite <- (output_value _ _ _ _ H'), <- E in P'.
  destruct (file_parts_unique _ _ _ _ _ _ _ P P') as (-> & Es & ->).
  apply app_inv_tail in Es. subst s'. destruct H as (-> & _), H' as (-> & _). reflexivity.
Qed.
Example examine_output_injective_ex :
  co_value (create_output_option true (lit "a")) <> co_value (create_output_option true (lit "a.")).
Proof. discriminate. Qed.
Print Assumptions examine_output_injective.

(** A run that already examines offers its own file again. *)
Theorem examine_output_kept : forall f, co_value (create_output_option false f) = f /\
  co_name (create_output_option false f) = lit "o" /\ co_name (create_output_option true f) = lit "o" /\
  co_short (create_output_option false f) = true /\ co_short (create_output_option true f) = true.
Proof. intros f. repeat split. Qed.
Print Assumptions examine_output_kept.

(** C51: one option gives exactly its flag and its value, for every value. *)
Theorem option_survives_shell : forall env name value,
  forallb plain name = true ->
  shell_words env (to_command_string (mk_opt true name value)) = Some [lit "-" ++ name; value] /\
  shell_words env (to_command_string (mk_opt false name value)) = Some [lit "--" ++ name; value].
Proof.
  intros env name value H. unfold shell_words.
  assert (forall o, forallb plain (co_name o) = true ->
    sh_read env Between (to_command_string o) = Some [(if co_short o then lit "-" else lit "--") ++ co_name o; co_value o]) as K.
  { intros o Ho. rewrite <- (app_nil_r (to_command_string o)), read_option by exact Ho. reflexivity. }
  split; now rewrite K.
Qed.
Example option_survives_shell_ex :
  forallb plain (lit "json-variables") = true /\
  to_command_string (mk_opt true (lit "q") (lit "SELECT `a` FROM t WHERE b = ""$1\""")) =
    lit "-q ""SELECT \`a\` FROM t WHERE b = \""\$1\\\""""" /\
  to_command_string (mk_opt true (lit "o") []) = lit "-o """"".
Proof. split; [reflexivity|split; reflexivity]. Qed.
Print Assumptions option_survives_shell.

(** The whole offered command, for any targets whose names mean themselves inside double
    quotes. *)
Theorem command_survives_shell : forall env k targets opts,
  targets <> [] ->
  Forall (fun it => quote_safe (it_table it) /\ Forall quote_safe (it_cols it)) targets ->
  (forall o, In o opts -> forallb plain (co_name o) = true) ->
  shell_words env (build_command_text k targets opts) =
  Some ([lit "gr"; lit "db"; lit "suggest"] ++
        match k with SubMysql => [lit "mysql"] | SubPostgres => [lit "postgres"] | SubHasura => [lit "hasura"; lit "postgres"] end ++
        [lit "--with-examine"] ++
        flat_map (fun it => [lit "-i"; it_table it ++ lit ":" ++ join (lit "+") (it_cols it)]) targets ++
        flat_map (fun o => [(if co_short o then lit "-" else lit "--") ++ co_name o; co_value o]) opts).
Proof.
  intros env k targets opts NE HT HO. unfold shell_words, build_command_text.
  rewrite read_head. destruct targets as [|it targets]; [easy|].
  rewrite read_targets by exact HT. rewrite read_options by exact HO.
  cbn [opt_cons]. unfold sub_words, target_words, opt_words, to_gr_index_option.
  rewrite <- !app_assoc. reflexivity.
Qed.
Print Assumptions command_survives_shell.

(** For the options that the program really gives and names of word characters: the words
    after -i are accepted by the program and give back the targets, the -o word is another
    file than the report (the same file if this run examined itself), and the query and the
    variables come back unchanged. *)
Theorem offered_command_round_trip : forall env k runs targets output query variables,
  targets <> [] ->
  Forall (fun it => identifier (it_table it) /\ it_cols it <> [] /\ Forall identifier (it_cols it)) targets ->
  exists texts out,
    shell_words env (build_command_text k targets (report_options k runs output query variables)) =
    Some ([lit "gr"; lit "db"; lit "suggest"] ++
          match k with SubMysql => [lit "mysql"] | SubPostgres => [lit "postgres"] | SubHasura => [lit "hasura"; lit "postgres"] end ++
          [lit "--with-examine"] ++ flat_map (fun t => [lit "-i"; t]) texts ++
          [lit "-o"; out; lit "-q"; query] ++
          match k with SubHasura => [lit "--json-variables"; variables] | _ => [] end) /\
    new_index_targets_from_texts texts = Ok targets /\ (if runs then out = output else out <> output /\ out <> []).
Proof.
  intros env k runs targets output query variables NE HT.
  exists (map to_gr_index_option targets), (co_value (create_output_option (negb runs) output)).
  assert (forall s, identifier s -> quote_safe s) as Q.
  { intros s [_ H]. eapply Forall_impl; [|exact H]. intros c Hc. unfold word_char in Hc.
    repeat split; intros ->; lia. }
  split; [|split].
  - rewrite command_survives_shell.
    + rewrite flat_map_concat_map, flat_map_concat_map, flat_map_concat_map, map_map. destruct k; reflexivity.
    + exact NE.
    + eapply Forall_impl; [|exact HT]. intros it (H1 & _ & H2). split; [now apply Q|].
      eapply Forall_impl; [|exact H2]. exact Q.
    + intros o Ho. apply in_app_or in Ho as [[<-|[<-|[]]]|Ho]; [reflexivity|reflexivity|].
      destruct k; cbn in Ho; [tauto|tauto|]. destruct Ho as [<-|[]]. reflexivity.
  - clear NE. induction HT as [|it targets (H1 & H2 & H3) _ IH]; [reflexivity|].
    cbn [map new_index_targets_from_texts]. rewrite index_option_roundtrip by assumption.
    cbn [obind]. rewrite IH. reflexivity.
  - destruct runs; cbn [negb]; [apply examine_output_kept|]. destruct (examine_output_differs output) as [D L]. split; [exact D|].
    intros E. rewrite E in L. cbn [length] in L. lia.
Qed.
Example offered_command_ex :
  let targets := [mk_it (lit "users") [lit "name"; lit "email"]; mk_it (lit "todos") [lit "user_id"]] in
  Forall (fun it => identifier (it_table it) /\ it_cols it <> [] /\ Forall identifier (it_cols it)) targets /\
  build_command_text SubMysql targets (report_options SubMysql false (lit "out/a.html") (lit "SELECT 1") []) =
  lit "gr db suggest mysql --with-examine \" ++ [10%N; 9%N] ++
  lit "-i ""users:name+email"" \" ++ [10%N; 9%N] ++
  lit "-i ""todos:user_id"" \" ++ [10%N; 9%N] ++
  lit "-o ""out/a_examine.html"" \" ++ [10%N; 9%N] ++
  lit "-q ""SELECT 1""".
Proof.
  cbv zeta. split; [|reflexivity].
  assert (H : forall s, wordb s = true -> identifier s) by (intros s; apply wordb_iff).
  assert (F : forall l, forallb wordb l = true -> Forall identifier l).
  { intros l Hl. apply Forall_forall. intros x Hx. apply H. rewrite forallb_forall in Hl. now apply Hl. }
  apply Forall_cons; [|apply Forall_cons; [|apply Forall_nil]]; cbn [it_table it_cols].
  - split; [apply H; reflexivity|]. split; [discriminate|]. apply F. reflexivity.
  - split; [apply H; reflexivity|]. split; [discriminate|]. apply F. reflexivity.
Qed.
Print Assumptions offered_command_round_trip.

(** When every box is unchecked the text is a command that the program refuses. *)
Theorem empty_selection_refused : forall env k opts,
  (forall o, In o opts -> forallb plain (co_name o) = true) ->
  shell_words env (build_command_text k [] opts) =
  Some ([lit "gr"; lit "db"; lit "suggest"] ++
        match k with SubMysql => [lit "mysql"] | SubPostgres => [lit "postgres"] | SubHasura => [lit "hasura"; lit "postgres"] end ++
        [lit "--with-examine"; lit "-i"; lit "..."] ++
        flat_map (fun o => [(if co_short o then lit "-" else lit "--") ++ co_name o; co_value o]) opts) /\
  (exists e, new_index_targets_from_texts [lit "..."] = Err e).
Proof.
  intros env k opts HO. split.
  - unfold shell_words, build_command_text. rewrite read_head.
    change (([9%N] ++ lit "-i ..." ++ next_line) ++ ?x) with (9%N :: [45%N; 105%N] ++ 32%N :: [46%N; 46%N; 46%N] ++ next_line ++ x).
    change (sh_read env Between (9%N :: ?x)) with (sh_read env Between x).
    rewrite read_plain_start by reflexivity. rewrite read_blank, read_plain_start by reflexivity.
    rewrite read_next_line, read_options by exact HO. cbn [opt_cons app]. unfold sub_words, opt_words.
    destruct k; reflexivity.
  - eexists. vm_compute. reflexivity.
Qed.
Print Assumptions empty_selection_refused.

(** The index texts are not escaped: with a dollar in a table name, which MySQL allows, the
    shell changes the word, or ends the quote at a quote character. *)
Theorem index_option_escape_refuted :
  ~ (forall env it, exists ws,
       shell_words env (build_command_text SubMysql [it] []) = Some ws /\
       In (it_table it ++ lit ":" ++ join (lit "+") (it_cols it)) ws).
Proof.
  intros H. destruct (H (fun _ => []) (mk_it (lit "a${b}") [lit "c"])) as (ws & E & I).
  vm_compute in E. injection E as <-. vm_compute in I.
  repeat (destruct I as [I|I]; [discriminate I|]). exact I.
Qed.
Print Assumptions index_option_escape_refuted.

(** C75: the statements offered for adding an index. *)
Theorem add_index_sql_exact : forall it,
  identifier (it_table it) -> it_cols it <> [] -> Forall identifier (it_cols it) ->
  sql_tokens (mysql_add_sql it) =
    [lit "ALTER"; lit "TABLE"; it_table it; lit "ADD"; lit "INDEX"; lit "("] ++ comma_list (it_cols it) ++ [lit ")"; lit ";"] /\
  sql_tokens (pg_add_sql it) =
    [lit "CREATE"; lit "INDEX"; lit "ON"; it_table it; lit "("] ++ comma_list (it_cols it) ++ [lit ")"; lit ";"].
Proof. intros it H1 H2 H3. split; [now apply mysql_tokens|now apply pg_tokens]. Qed.
Example add_index_sql_ex :
  mysql_add_sql (mk_it (lit "users") [lit "name"; lit "email"]) = lit "ALTER TABLE users ADD INDEX (name, email);" /\
  pg_add_sql (mk_it (lit "users") [lit "name"; lit "email"]) = lit "CREATE INDEX ON users (name, email);" /\
  target_string (mk_it (lit "users") [lit "name"; lit "email"]) = lit "Table=users / Column=name, email".
Proof. split; [|split]; reflexivity. Qed.
Print Assumptions add_index_sql_exact.

(** No two targets have the same statement. *)
Lemma comma_list_inj : forall l l', Forall identifier l -> Forall identifier l' -> comma_list l = comma_list l' -> l = l'.
Proof.
  induction l as [|a l IH]; intros l' H H' E.
  - destruct l' as [|b [|b2 l']]; [reflexivity|discriminate E|discriminate E].
  - destruct l' as [|b l']; [destruct l; discriminate E|].
    inversion H as [|? ? _ Hl]; inversion H' as [|? ? _ Hl']; subst.
    destruct l as [|a2 l], l' as [|b2 l'].
    + now injection E as ->.
    + discriminate E.
    + discriminate E.
    + change (a :: lit "," :: comma_list (a2 :: l) = b :: lit "," :: comma_list (b2 :: l')) in E.
      injection E as -> E. f_equal. now apply IH.
Qed.
Theorem add_index_sql_unambiguous : forall it it',
  identifier (it_table it) -> it_cols it <> [] -> Forall identifier (it_cols it) ->
  identifier (it_table it') -> it_cols it' <> [] -> Forall identifier (it_cols it') ->
  mysql_add_sql it = mysql_add_sql it' \/ pg_add_sql it = pg_add_sql it' -> it = it'.
Proof.
  intros [t c] [t' c'] H1 H2 H3 H1' H2' H3' E. cbn [it_table it_cols] in *.
  assert (t = t' /\ comma_list c ++ [lit ")"; lit ";"] = comma_list c' ++ [lit ")"; lit ";"]) as [-> EC].
  { destruct E as [E|E]; apply (f_equal sql_tokens) in E.
    - rewrite !mysql_tokens in E by assumption. cbn [it_table it_cols app] in E. now injection E as -> E.
    - rewrite !pg_tokens in E by assumption. cbn [it_table it_cols app] in E. now injection E as -> E. }
  apply app_inv_tail in EC. apply comma_list_inj in EC; [now subst|exact H3|exact H3'].
Qed.
Example add_index_sql_unambiguous_ex :
  mysql_add_sql (mk_it (lit "t") [lit "a"; lit "b"]) <> mysql_add_sql (mk_it (lit "t") [lit "b"; lit "a"]).
Proof. discriminate. Qed.
Print Assumptions add_index_sql_unambiguous.

(** The request offered for Hasura: the words curl gets, whatever the two variables hold;
    the statement is inside the JSON text as it is. *)
Theorem hasura_request_words : forall env it,
  identifier (it_table it) -> it_cols it <> [] -> Forall identifier (it_cols it) ->
  shell_words env (hasura_executable_text it) =
  Some [lit "curl"; lit "--request"; lit "POST"; lit "--url"; env (lit "HASURA_URL") ++ lit "/v2/query";
        lit "--header"; lit "Content-Type: application/json";
        lit "--header"; lit "x-hasura-admin-secret: " ++ env (lit "HASURA_ADMIN_SECRET");
        lit "--data";
        lit "{" ++ [10%N; 9%N] ++ lit """type"": ""run_sql""," ++ [10%N; 9%N] ++ lit """args"": {" ++ [10%N; 9%N; 9%N] ++
        lit """sql"": """ ++ lit "CREATE INDEX ON " ++ it_table it ++ lit " (" ++ join (lit ", ") (it_cols it) ++ lit ");" ++
        lit """" ++ [10%N; 9%N] ++ lit "}" ++ [10%N] ++ lit "}"].
Proof.
  intros env it [_ H1] H2 H3.
  set (body := lit "{" ++ [10%N; 9%N] ++ lit """type"": ""run_sql""," ++ [10%N; 9%N] ++ lit """args"": {" ++ [10%N; 9%N; 9%N] ++
        lit """sql"": """ ++ lit "CREATE INDEX ON " ++ it_table it ++ lit " (" ++ join (lit ", ") (it_cols it) ++ lit ");" ++
        lit """" ++ [10%N; 9%N] ++ lit "}" ++ [10%N] ++ lit "}").
  assert (forall c, word_char c -> c <> 39%N) as W by (intros c Hc ->; unfold word_char in Hc; lia).
  assert (~ In 39%N (join (lit ", ") (it_cols it))) as NC.
  { clear H2. induction H3 as [|c cols [_ Hc] Hcs IH]; [cbn; tauto|].
    assert (~ In 39%N c) as Hn by (rewrite Forall_forall in Hc; intros K; now apply (W _ (Hc _ K))).
    destruct cols as [|c2 cols]; [exact Hn|].
    change (join (lit ", ") (c :: c2 :: cols)) with (c ++ lit ", " ++ join (lit ", ") (c2 :: cols)).
    intros K. apply in_app_or in K as [K|K]; [easy|]. apply in_app_or in K as [K|K]; [|easy].
    cbn in K. intuition discriminate. }
  assert (~ In 39%N (it_table it)) as NT by (rewrite Forall_forall in H1; intros K; now apply (W _ (H1 _ K))).
  assert (~ In 39%N body) as NB.
  { unfold body. intros K.
    repeat (apply in_app_or in K as [K|K];
      [solve [easy | repeat (destruct K as [K|K]; [discriminate K|]); exact K]|]).
    repeat (destruct K as [K|K]; [discriminate K|]); exact K. }
  unfold shell_words.
  replace (hasura_executable_text it) with
    (lit "curl --request POST   --url ""${HASURA_URL}/v2/query""   --header 'Content-Type: application/json'   --header ""x-hasura-admin-secret: ${HASURA_ADMIN_SECRET}""   --data '" ++ body ++ 39%N :: []).
  2:{ unfold body, hasura_executable_text, pg_add_sql, nl, tab. rewrite <- !app_assoc. reflexivity. }
  assert (forall v w r, forallb (fun c => negb (needs_escape c)) v = true ->
    sh_read env (InQuote w) (v ++ 34%N :: r) = sh_read env (InWord (w ++ v)) r) as Q.
  { intros v w r Hv. rewrite <- (quote_safe_escape v) at 1; [apply read_quoted|].
    apply Forall_forall. intros c Hc. rewrite forallb_forall in Hv. specialize (Hv c Hc).
    apply negb_true_iff in Hv. unfold needs_escape in Hv. rewrite !orb_false_iff, !N.eqb_neq in Hv. tauto. }
  set (tail := body ++ [39%N]).
  replace (lit "curl --request POST   --url ""${HASURA_URL}/v2/query""   --header 'Content-Type: application/json'   --header ""x-hasura-admin-secret: ${HASURA_ADMIN_SECRET}""   --data '" ++ tail)
    with (lit "curl --request POST   --url ""${HASURA_URL}" ++ lit "/v2/query" ++ 34%N ::
          lit "   --header 'Content-Type: application/json'   --header ""x-hasura-admin-secret: ${HASURA_ADMIN_SECRET}" ++ 34%N ::
          lit "   --data '" ++ tail) by reflexivity.
  set (r2 := lit "   --data '" ++ tail).
  set (r1 := lit "   --header 'Content-Type: application/json'   --header ""x-hasura-admin-secret: ${HASURA_ADMIN_SECRET}" ++ 34%N :: r2).
  transitivity (opt_cons [lit "curl"; lit "--request"; lit "POST"; lit "--url"]
    (sh_read env (InQuote (env (lit "HASURA_URL"))) (lit "/v2/query" ++ 34%N :: r1))).
  { set (r0 := lit "/v2/query" ++ 34%N :: r1). clearbody r0. cbn.
    destruct (sh_read env (InQuote (env (lit "HASURA_URL"))) r0) eqn:E; cbn in E; rewrite E; reflexivity. }
  rewrite Q by reflexivity.
  transitivity (opt_cons [lit "curl"; lit "--request"; lit "POST"; lit "--url"; env (lit "HASURA_URL") ++ lit "/v2/query";
      lit "--header"; lit "Content-Type: application/json"; lit "--header"]
    (sh_read env (InWord (lit "x-hasura-admin-secret: " ++ env (lit "HASURA_ADMIN_SECRET"))) r2)).
  { set (u := env (lit "HASURA_URL") ++ lit "/v2/query"). unfold r1. clearbody r2 u.
    cbn. destruct (sh_read env (InWord (lit "x-hasura-admin-secret: " ++ env (lit "HASURA_ADMIN_SECRET"))) r2) eqn:E;
      cbn in E; rewrite E; reflexivity. }
  set (u := env (lit "HASURA_URL") ++ lit "/v2/query").
  set (x := lit "x-hasura-admin-secret: " ++ env (lit "HASURA_ADMIN_SECRET")).
  transitivity (opt_cons [lit "curl"; lit "--request"; lit "POST"; lit "--url"; u;
      lit "--header"; lit "Content-Type: application/json"; lit "--header"; x; lit "--data"]
    (sh_read env (InSingle []) tail)).
  { unfold r2. clearbody x u tail. cbn. now destruct (sh_read env (InSingle []) tail). }
  unfold tail. rewrite read_single by exact NB. cbn [app sh_read opt_cons]. reflexivity.
Qed.
Example hasura_request_words_ex :
  shell_words (fun n => if seqb n (lit "HASURA_URL") then lit "http://a" else lit "s3 cret")
    (hasura_executable_text (mk_it (lit "t") [lit "c"])) =
  Some [lit "curl"; lit "--request"; lit "POST"; lit "--url"; lit "http://a/v2/query";
        lit "--header"; lit "Content-Type: application/json";
        lit "--header"; lit "x-hasura-admin-secret: s3 cret"; lit "--data";
        lit "{" ++ [10%N; 9%N] ++ lit """type"": ""run_sql""," ++ [10%N; 9%N] ++ lit """args"": {" ++ [10%N; 9%N; 9%N] ++
        lit """sql"": ""CREATE INDEX ON t (c);""" ++ [10%N; 9%N] ++ lit "}" ++ [10%N] ++ lit "}"].
Proof. reflexivity. Qed.
Print Assumptions hasura_request_words.
