(** C99, C100, C104: the acts of a command are what the server and the file system see, and
    if the command succeeds, each of them did. *)
From Coq Require Import String List NArith ZArith QArith Bool Lia Arith.
From Verif Require Import Base IndexText IndexBuild TableFields Existing ExplainTree PlanView SqlServer MetaSql Examiner SuggestCmd Json HandOver CommandText Program HasuraProgram ReplaySpec.
From Verif Require MysqlExplain PgExplain MysqlAst MysqlCollect PgAst PgCollect ConnText Hasura PgArray BuildProperties MysqlProperties PgProperties ProgramMyProperties ProgramPgProperties HasuraProgramProperties.
Import ListNotations.
Local Open Scope string_scope.
Local Open Scope list_scope.
Local Open Scope nat_scope.

Section Sound.
Context {W : Type} (see : W -> act -> W) (fine : W -> act -> Prop).
Definition sound {A} (p : @prog W A) : Prop := forall w tr w' r, p w = (tr, w', r) ->
  replay see w tr = w' /\ ((exists x, r = Ok x) -> all_fine see fine w tr).
Lemma replay_app : forall a b w, replay see w (a ++ b) = replay see (replay see w a) b.
Proof. induction a as [|x a IH]; intros b w; [reflexivity|]. cbn [app replay]. apply IH. Qed.
Lemma fine_app : forall a b w, all_fine see fine w (a ++ b) <-> all_fine see fine w a /\ all_fine see fine (replay see w a) b.
Proof. induction a as [|x a IH]; intros b w; cbn [app replay all_fine]; [tauto|]. rewrite IH. tauto. Qed.
Lemma sound_give : forall A (x : outcome A), sound (give x).
Proof. intros A x w tr w' r H. unfold give in H. injection H as <- <- _. split; [reflexivity|intros _; exact I]. Qed.
Lemma sound_andthen : forall A B (p : prog A) (f : A -> prog B), sound p -> (forall x, sound (f x)) -> sound (andthen p f).
Proof.
  intros A B p f HP HF w tr w' r H. unfold andthen in H. destruct (p w) as [[tr1 w1] r1] eqn:E1. destruct (HP _ _ _ _ E1) as [H1 H2].
  destruct r1 as [x|m|]; [|injection H as <- <- <-; split; [exact H1|intros (y & K); discriminate]|injection H as <- <- <-; split; [exact H1|intros (y & K); discriminate]].
  destruct (f x w1) as [[tr2 w2] r2] eqn:E2. injection H as <- <- <-. destruct (HF x _ _ _ _ E2) as [H3 H4].
  rewrite replay_app, fine_app, H1. split; [exact H3|]. intros K. split; [apply H2; eauto|now apply H4].
Qed.
Lemma sound_if : forall A (b : bool) (p q : @prog W A), sound p -> sound q -> sound (if b then p else q).
Proof. intros A [] p q HP HQ; assumption. Qed.

(** The examination *)
Section Exam.
Context (db : database W) (create drop : gostring -> index_target -> act) (query : act).
Context (HE : forall w, fst (db_execute db w) = see w query /\ (forall ms, snd (db_execute db w) = inl ms -> fine w query))
  (HC : forall w n it, fst (db_create db w n it) = see w (create n it) /\ (snd (db_create db w n it) = None -> fine w (create n it)))
  (HD : forall w n it, fst (db_drop db w n it) = see w (drop n it) /\ (snd (db_drop db w n it) = None -> fine w (drop n it))).
Lemma examine_sound : forall w id rnd it evs w' r, examine db w id rnd it = (evs, w', r) ->
    replay see w (map (statement create drop query) evs) = w' /\ ((exists x, r = Ok x) -> all_fine see fine w (map (statement create drop query) evs)).
Proof.
  intros w id rnd it evs w' r H. unfold examine in H. pose proof (HC w (idx_name id rnd it) it) as [C1 C2].
  destruct (db_create db w (idx_name id rnd it) it) as [w1 ce]. cbn [fst snd] in C1, C2. destruct ce as [e|].
  { injection H as <- <- <-. split; [cbn; auto|intros (x & K); discriminate]. }
  pose proof (HE w1) as [E1 E2]. destruct (db_execute db w1) as [w2 ex]. cbn [fst snd] in E1, E2.
  pose proof (HD w2 (idx_name id rnd it) it) as [D1 D2]. destruct (db_drop db w2 (idx_name id rnd it) it) as [w3 de]. cbn [fst snd] in D1, D2.
  assert (HR : replay see w (map (statement create drop query) [EvCreate (idx_name id rnd it) it None; EvExecute ex; EvDrop (idx_name id rnd it) it de]) = w3)
    by (cbn [map statement replay]; congruence).
  destruct ex as [ms|e]; [destruct de as [e|]|]; injection H as <- <- <-; (split; [exact HR|]); intros (x & K); try discriminate.
  cbn [map statement all_fine]. rewrite <- C1, <- E1. split; [auto|]. split; [eauto|]. split; [auto|exact I].
Qed.
Lemma loop_sound : forall its w id rnds k evs w' r, run_loop db w id rnds k its = (evs, w', r) ->
    replay see w (map (statement create drop query) evs) = w' /\ ((exists x, r = Ok x) -> all_fine see fine w (map (statement create drop query) evs)).
Proof.
  induction its as [|it its IH]; intros w id rnds k evs w' r H.
  - injection H as <- <- <-. split; [reflexivity|intros _; exact I].
  - cbn [run_loop] in H. destruct (examine db w id (rnds k) it) as [[tr w1] r1] eqn:E1. destruct (examine_sound _ _ _ _ _ _ _ E1) as [H1 H2].
    destruct r1 as [res|m|]; [|injection H as <- <- <-; split; [exact H1|intros (y & K); discriminate]|injection H as <- <- <-; split; [exact H1|intros (y & K); discriminate]].
    destruct (run_loop db w1 id rnds (S k) its) as [[tr2 w2] r2] eqn:E2. injection H as <- <- <-. destruct (IH _ _ _ _ _ _ _ E2) as [H3 H4].
    rewrite map_app, replay_app, fine_app, H1. split; [exact H3|]. intros (x & K). split; [apply H2; eauto|]. apply H4.
    destruct r2; [eauto|discriminate|discriminate].
Qed.
Lemma sound_examine : forall unix rnds vars its, sound (examine_with db create drop query unix rnds vars its).
Proof.
  intros unix rnds vars its w tr w' r H. unfold examine_with in H. destruct (run db w unix rnds _) as [[evs w1] r1] eqn:E. injection H as <- <- <-.
  unfold run in E. pose proof (HE w) as [E1 E2]. destruct (db_execute db w) as [w2 ex]. cbn [fst snd] in E1, E2.
  destruct ex as [ms|m]; [|injection E as <- <- <-; split; [cbn; auto|intros (x & K); discriminate]].
  destruct (run_loop db w2 _ rnds 0 _) as [[evs2 w3] r2] eqn:EL. injection E as <- <- <-. destruct (loop_sound _ _ _ _ _ _ _ _ EL) as [H1 H2].
  cbn [map statement replay all_fine]. rewrite <- E1. split; [exact H1|]. intros (x & K). split; [eauto|]. apply H2. destruct r2; [eauto|discriminate|discriminate].
Qed.
End Exam.
Lemma sound_conclude : forall sv ex runs output html,
    (forall w b, fst (on_write sv w output b) = see w (AWrite output b) /\ (snd (on_write sv w output b) = None -> fine w (AWrite output b))) ->
    sound ex -> sound (conclude sv ex runs output html).
Proof.
  intros sv ex runs output html HW HX. unfold conclude. apply sound_andthen.
  - apply sound_if; [apply sound_andthen; [exact HX|intros x; apply sound_give]|apply sound_give].
  - intros er. destruct output as [|c o]; [apply sound_give|]. intros w tr w' r H. pose proof (HW w (html er)) as [H1 H2].
    destruct (on_write sv w (c :: o) (html er)) as [w1 e]. cbn [fst snd] in H1, H2. injection H as <- <- <-. cbn [replay all_fine]. split; [auto|].
    intros (x & K). split; [|exact I]. destruct e; [discriminate|auto].
Qed.
End Sound.

Ltac sound_tac := repeat match goal with
  | |- sound _ _ (give _) => apply sound_give
  | |- sound _ _ (andthen _ _) => apply sound_andthen; [|intros ?]
  | |- sound _ _ (match ?x with _ => _ end) => destruct x
  end.

Section Sql.
Context {W : Type} (sv : world W).
Lemma sound_select : forall A message rq (f : row -> outcome A), sound (sql_see sv) (sql_fine sv) (select_as sv message rq f).
Proof.
  intros A message rq f w tr w' r H. unfold select_as in H. destruct (on_select sv w rq) as [w1 a] eqn:E. injection H as <- <- <-.
  cbn [replay all_fine sql_see sql_fine]. rewrite E. split; [reflexivity|]. intros (x & K). split; [|exact I]. unfold selected in K.
  cbn [snd]. destruct a; [eauto|discriminate|discriminate].
Qed.
Lemma exec_fine : forall w s, fst (exec sv w s) = sql_see sv w (AExec s) /\ (forall ms, snd (exec sv w s) = inl ms -> sql_fine sv w (AExec s)).
Proof.
  intros w s. unfold exec. cbn [sql_see sql_fine]. destruct (on_exec sv w s) as [w1 [ms|e]]; cbn [fst snd]; split; try reflexivity; intros ms' H; [eauto|discriminate].
Qed.
Lemma exec_only_fine : forall w s, fst (exec_only sv w s) = sql_see sv w (AExec s) /\ (snd (exec_only sv w s) = None -> sql_fine sv w (AExec s)).
Proof.
  intros w s. unfold exec_only. destruct (exec_fine w s) as [H1 H2]. destruct (exec sv w s) as [w1 [ms|e]]; cbn [fst snd] in *; split; auto; intros K; [eauto|discriminate].
Qed.
Lemma sound_connection : forall A c (p : prog A), sound (sql_see sv) (sql_fine sv) p -> sound (sql_see sv) (sql_fine sv) (with_connection sv c p).
Proof.
  intros A c p HP w tr w' r H. unfold with_connection in H. destruct (on_open sv w c) as [w1 [m|]] eqn:E.
  - injection H as <- <- <-. cbn [replay sql_see]. rewrite E. split; [reflexivity|intros (x & K); discriminate].
  - destruct (p w1) as [[tr1 w2] r1] eqn:E1. injection H as <- <- <-. destruct (HP _ _ _ _ E1) as [H1 H2].
    cbn [replay all_fine sql_see sql_fine]. rewrite E. cbn [fst snd]. rewrite replay_app, fine_app, H1. split; [reflexivity|]. intros K.
    split; [reflexivity|]. split; [auto|]. cbn. auto.
Qed.
Theorem mysql_seen : forall fold so ord ordf srt unix rnds runs texts query output low parse env w tr w' r,
    mysql_main sv fold so ord ordf srt unix rnds runs texts query output low parse env w = (tr, w', r) ->
    replay (sql_see sv) w tr = w' /\ ((exists x, r = Ok x) -> all_fine (sql_see sv) (sql_fine sv) w tr).
Proof.
  intros fold so ord ordf srt unix rnds runs texts query output low parse env.
  change (sound (sql_see sv) (sql_fine sv) (mysql_main sv fold so ord ordf srt unix rnds runs texts query output low parse env)).
  apply sound_andthen; [apply sound_give|intros c]. apply sound_connection. unfold mysql_suggest_cmd, mysql_explain, mysql_suggest_with, mysql_ask_columns, mysql_ask_indexes.
  sound_tac; try apply sound_select.
  apply sound_conclude; [intros w b; split; auto|]. apply sound_examine.
  - intros w. apply exec_fine.
  - intros w n it. apply exec_only_fine.
  - intros w n it. apply exec_only_fine.
Qed.
Theorem pg_seen : forall fold so ord ordf srt unix rnds runs texts query output norm parse env w tr w' r,
    pg_main sv fold so ord ordf srt unix rnds runs texts query output norm parse env w = (tr, w', r) ->
    replay (sql_see sv) w tr = w' /\ ((exists x, r = Ok x) -> all_fine (sql_see sv) (sql_fine sv) w tr).
Proof.
  intros fold so ord ordf srt unix rnds runs texts query output norm parse env.
  change (sound (sql_see sv) (sql_fine sv) (pg_main sv fold so ord ordf srt unix rnds runs texts query output norm parse env)).
  apply sound_andthen; [apply sound_give|intros c]. apply sound_connection. unfold pg_suggest_cmd, pg_explain, pg_suggest_with, pg_ask_columns, pg_ask_indexes.
  sound_tac; try apply sound_select.
  apply sound_conclude; [intros w b; split; auto|]. apply sound_examine.
  - intros w. apply exec_fine.
  - intros w n it. apply exec_only_fine.
  - intros w n it. apply exec_only_fine.
Qed.
End Sql.

Section Http.
Context {W : Type} (hv : hworld W) (unmarshal : gostring -> option jv) (kfold : rune -> rune).
Let see := http_see hv.
Let fine := http_fine hv unmarshal.
(** a request whose answer is read as JSON *)
Lemma sound_post : forall A path body (read : gostring -> outcome A), (forall text x, read text = Ok x -> unmarshal text <> None) ->
    sound see fine (andthen (post hv path body) (fun text => give (read text))).
Proof.
  intros A path body read HR w tr w' r H. unfold andthen, post in H. destruct (h_post hv w path body) as [[w1 ms] a] eqn:E.
  assert (HT : replay see w [APost path body] = w1).
  { cbn [replay]. unfold see. cbn [http_see]. now rewrite E. }
  destruct a as [m|status text]; [injection H as <- <- <-; split; [exact HT|intros (x & K); discriminate]|].
  cbn [posted] in H. destruct (N.eqb_spec status 200) as [->|HN]; [|injection H as <- <- <-; split; [exact HT|intros (x & K); discriminate]].
  unfold give in H. injection H as <- <- <-. split; [exact HT|]. intros (x & K). cbn [all_fine app]. split; [|exact I].
  unfold fine. cbn [http_fine]. rewrite E. exists text. split; [reflexivity|right]. eapply HR; eauto.
Qed.
Lemma raw_fine : forall w path body, fst (let '(w1, _, a) := h_post hv w path body in
      (w1, match (do text <- posted a; result_of unmarshal kfold text) with Ok _ => None | Err m => Some m | Panic => Some [] end)) = see w (APost path body) /\
    (snd (let '(w1, _, a) := h_post hv w path body in
      (w1, match (do text <- posted a; result_of unmarshal kfold text) with Ok _ => None | Err m => Some m | Panic => Some [] end)) = None -> fine w (APost path body)).
Proof.
  intros w path body. unfold see, fine. cbn [http_see http_fine]. destruct (h_post hv w path body) as [[w1 ms] a]. cbn [fst snd]. split; [reflexivity|].
  destruct a as [m|status text]; [discriminate|]. cbn [posted]. destruct (N.eqb_spec status 200) as [->|HN]; [|discriminate]. cbn [obind]. intros K.
  exists text. split; [reflexivity|right]. intros HU. unfold result_of in K. rewrite HU in K. discriminate.
Qed.
Theorem hasura_seen : forall fold so ord ordf srt unix rnds norm parse scan float parse_url env runs texts query variables output w tr w' r,
    hasura_main hv unmarshal kfold fold so ord ordf srt unix rnds norm parse scan float parse_url env runs texts query variables output w = (tr, w', r) ->
    replay (http_see hv) w tr = w' /\ ((exists x, r = Ok x) -> all_fine (http_see hv) (http_fine hv unmarshal) w tr).
Proof.
  intros fold so ord ordf srt unix rnds norm parse scan float parse_url env runs texts query variables output.
  change (sound see fine (hasura_main hv unmarshal kfold fold so ord ordf srt unix rnds norm parse scan float parse_url env runs texts query variables output)).
  apply sound_andthen; [apply sound_give|intros v]. apply sound_andthen; [apply sound_give|intros c].
  assert (HSql : forall rq, sound see fine (run_sql hv unmarshal kfold rq)).
  { intros rq. apply sound_post. intros text x H HU. unfold result_of in H. rewrite HU in H. discriminate. }
  unfold hasura_suggest_cmd. apply sound_andthen.
  { apply sound_post. intros text x H HU. rewrite HU in H. discriminate. }
  intros res. unfold suggest_for, ask_columns, ask_indexes.
  sound_tac; try apply HSql.
  apply sound_conclude; [intros w b; split; auto|]. apply sound_examine.
  - intros w. unfold see, fine. cbn [hasura_examiner db_execute http_see http_fine]. destruct (h_post hv w _ _) as [[w1 ms] a]. cbn [fst snd]. split; [reflexivity|].
    destruct a as [m|status text]; [discriminate|]. cbn [posted]. destruct (N.eqb_spec status 200) as [->|HN]; [|discriminate].
    intros ms' _. exists text. split; [reflexivity|now left].
  - intros w n it. apply raw_fine.
  - intros w n it. apply raw_fine.
Qed.
End Http.

(** A server that remembers everything remembers exactly the acts. *)
Definition log_world {W} (sv : world W) : world (W * list act) := {|
  on_open := fun w c => (fst (on_open sv (fst w) c), snd w ++ [AOpen c], snd (on_open sv (fst w) c));
  on_select := fun w rq => (fst (on_select sv (fst w) rq), snd w ++ [ASelect rq], snd (on_select sv (fst w) rq));
  on_exec := fun w s => (fst (on_exec sv (fst w) s), snd w ++ [AExec s], snd (on_exec sv (fst w) s));
  on_write := fun w p b => (fst (on_write sv (fst w) p b), snd w ++ [AWrite p b], snd (on_write sv (fst w) p b));
  on_close := fun w => (on_close sv (fst w), snd w ++ [AClose]) |}.
Definition log_hworld {W} (hv : hworld W) : hworld (W * list act) := {|
  h_post := fun w p j => let '(n, ms, a) := h_post hv (fst w) p j in (n, snd w ++ [APost p j], ms, a);
  h_write := fun w p b => (fst (h_write hv (fst w) p b), snd w ++ [AWrite p b], snd (h_write hv (fst w) p b)) |}.
Lemma sql_log : forall W (sv : world W) tr w, (forall p j, ~ In (APost p j) tr) -> snd (replay (sql_see (log_world sv)) w tr) = snd w ++ tr.
Proof.
  intros W sv. induction tr as [|a tr IH]; intros w H; [symmetry; apply app_nil_r|]. cbn [replay]. rewrite IH by (intros p j K; apply (H p j); now right).
  replace (a :: tr) with ([a] ++ tr) by reflexivity. rewrite app_assoc. f_equal. destruct a; try reflexivity. elim (H path body). now left.
Qed.
Lemma http_log : forall W (hv : hworld W) tr w, (forall a, In a tr -> exists p j b, a = APost p j \/ a = AWrite p b) -> snd (replay (http_see (log_hworld hv)) w tr) = snd w ++ tr.
Proof.
  intros W hv. induction tr as [|a tr IH]; intros w H; [symmetry; apply app_nil_r|]. cbn [replay]. rewrite IH by (intros x K; apply H; now right).
  replace (a :: tr) with ([a] ++ tr) by reflexivity. rewrite app_assoc. f_equal. destruct (H a (or_introl eq_refl)) as (p & j & b & [->| ->]); [|reflexivity].
  cbn [http_see log_hworld h_post]. now destruct (h_post hv (fst w) p j) as [[n ms] x].
Qed.
Example mysql_seen_ex : exists w' tr,
  mysql_main (log_world ProgramMyProperties.ex_world) IndexText.ascii_fold (fun l => l) BuildProperties.id_ord BuildProperties.id_ord BuildProperties.isort 7 (fun _ => 0%N)
    true [lit "users:email"] ProgramMyProperties.ex_query (lit "out.html") MysqlProperties.ascii_low (fun _ => Ok [MysqlProperties.ex_stmt]) ProgramMyProperties.ex_env (0, []) =
    (tr, w', Ok tt) /\ snd w' = tr /\ length tr = 10.
Proof. do 2 eexists. split; [vm_compute; reflexivity|]. split; reflexivity. Qed.
Example pg_seen_ex : exists w' tr,
  pg_main (log_world ProgramPgProperties.ex_world) IndexText.ascii_fold (fun l => l) BuildProperties.id_ord BuildProperties.id_ord BuildProperties.isort 7 (fun _ => 0%N)
    true [lit "users:email"] ProgramPgProperties.ex_query (lit "out.html") PgProperties.low (fun _ => Ok [PgProperties.ex_stmt]) ProgramPgProperties.ex_env (0, []) =
    (tr, w', Ok tt) /\ snd w' = tr /\ length tr = 10.
Proof. do 2 eexists. split; [vm_compute; reflexivity|]. split; reflexivity. Qed.
Example hasura_seen_ex : exists w' tr,
  hasura_main (log_hworld HasuraProgramProperties.ex_hworld) HasuraProgramProperties.ex_answers IndexText.ascii_fold IndexText.ascii_fold (fun l => l)
    BuildProperties.id_ord BuildProperties.id_ord BuildProperties.isort 7 (fun _ => 0%N) PgProperties.low (fun _ => Ok [PgProperties.ex_stmt]) PgArray.array_in
    (fun q => Some q) (fun _ => Ok tt) HasuraProgramProperties.ex_env true [lit "users:email"] (lit "query { users { id } }") (lit "{}") (lit "out.html") (0, []) =
    (tr, w', Ok tt) /\ snd w' = tr /\ length tr = 8.
Proof. do 2 eexists. split; [vm_compute; reflexivity|]. split; reflexivity. Qed.
Print Assumptions mysql_seen.
Print Assumptions pg_seen.
Print Assumptions hasura_seen.
