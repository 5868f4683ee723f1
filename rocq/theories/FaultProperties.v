(** C122: once the server or the file system fails a command, the command does nothing but
    drop the index it tried and close, and its error tells what failed and why. *)
From Coq Require Import String List NArith ZArith QArith Bool Lia Arith.
From Verif Require Import Base Dec IndexText IndexBuild TableFields Existing ExplainTree PlanView SqlServer MetaSql Examiner SuggestCmd Json HandOver CommandText Program HasuraProgram ReplaySpec ReplayProperties FaultSpec.
From Verif Require MysqlExplain PgExplain MysqlAst MysqlCollect PgAst PgCollect ConnText Hasura PgArray BuildProperties MysqlProperties PgProperties ProgramMyProperties ProgramPgProperties HasuraProgramProperties.
Import ListNotations.
Local Open Scope string_scope.
Local Open Scope list_scope.
Local Open Scope nat_scope.

(** The first of two parts, or the second *)
Lemma app_parts : forall (A : Type) (p q a b : list A) x, p ++ q = a ++ x :: b ->
    (exists c, p = a ++ x :: c /\ b = c ++ q) \/ (exists c, a = p ++ c /\ q = c ++ x :: b).
Proof.
  intros A. induction p as [|y p IH]; intros q a b x H.
  - right. exists a. split; [reflexivity|exact H].
  - destruct a as [|z a]; injection H as -> H.
    + left. exists p. split; [reflexivity|now symmetry].
    + destruct (IH _ _ _ _ H) as [(c & -> & ->)|(c & -> & ->)]; [left|right]; exists c; split; reflexivity.
Qed.

Lemma given_ok : forall W A B (x : A) (f : A -> @prog W B) w, andthen (give (Ok x)) f w = f x w.
Proof. intros W A B x f w. unfold andthen, give. destruct (f x w) as [[tr w1] r]. reflexivity. Qed.

Section Tells.
Context {W : Type} (see : W -> act -> W) (fine : W -> act -> Prop) (error : W -> act -> option gostring)
  (words : act -> gostring -> gostring -> Prop) (create drop : gostring -> index_target -> act) (query : act).
Let after := nothing_but_drop create drop query.
Definition tells {A} (p : @prog W A) : Prop := sound see fine p /\
  forall w tr w' r a x b m, p w = (tr, w', r) -> tr = a ++ x :: b -> all_fine see fine w a -> error (replay see w a) x = Some m ->
    exists e, r = Err e /\ words x m e /\ after a x b.
Lemma tells_give : forall A (x : outcome A), tells (give x).
Proof.
  intros A x. split; [apply sound_give|]. intros w tr w' r a y b m H HT. unfold give in H. injection H as <- _ _. destruct a; discriminate.
Qed.
Lemma after_more : forall c a x b, after a x b -> after (c ++ a) x b.
Proof.
  intros c a x b [H|(a' & n & it & -> & H)]; [now left|right]. exists (c ++ a'), n, it. split; [apply app_assoc|exact H].
Qed.
Lemma tells_andthen : forall A B (p : prog A) (f : A -> prog B), tells p -> (forall x, tells (f x)) -> tells (andthen p f).
Proof.
  intros A B p f [SP HP] HF. split; [apply sound_andthen; [exact SP|intros x; apply HF]|].
  intros w tr w' r a x b m H HT HA HE. unfold andthen in H. destruct (p w) as [[tr1 w1] r1] eqn:E1.
  destruct r1 as [y|e|].
  - destruct (f y w1) as [[tr2 w2] r2] eqn:E2. injection H as H _ <-. rewrite <- H in HT. clear H.
    destruct (app_parts _ _ _ _ _ _ HT) as [(c & K & _)|(c & -> & K)].
    + destruct (HP _ _ _ _ _ _ _ _ E1 K HA HE) as (e & K2 & _). discriminate.
    + destruct (SP _ _ _ _ E1) as [S1 _]. rewrite replay_app, S1 in HE. apply fine_app in HA as [_ HA]. rewrite S1 in HA.
      destruct (HF y) as [_ HF']. destruct (HF' _ _ _ _ _ _ _ _ E2 K HA HE) as (e & H1 & H2 & H3). exists e. split; [exact H1|]. split; [exact H2|]. now apply after_more.
  - injection H as <- _ <-. destruct (HP _ _ _ _ _ _ _ _ E1 HT HA HE) as (e' & H1 & H2). exists e'. split; [|exact H2]. congruence.
  - injection H as <- _ <-. destruct (HP _ _ _ _ _ _ _ _ E1 HT HA HE) as (e' & H1 & H2). discriminate.
Qed.
Lemma tells_given : forall A B (v : outcome A) (f : A -> prog B), (forall x, v = Ok x -> tells (f x)) -> tells (andthen (give v) f).
Proof.
  intros A B v f HF. assert (K : forall x, v = Ok x -> forall w, andthen (give v) f w = f x w).
  { intros x -> w. apply given_ok. }
  destruct v as [x|m|].
  - destruct (HF x eq_refl) as [H1 H2]. split.
    + intros w tr w' r H. rewrite (K x eq_refl) in H. now apply H1.
    + intros w tr w' r a y b m H. rewrite (K x eq_refl) in H. now apply (H2 w tr w').
  - exact (tells_give B (Err m)).
  - exact (tells_give B Panic).
Qed.
(** the only act of a part *)
Lemma tells_one : forall A (p : prog A), sound see fine p ->
    (forall w tr w' r, p w = (tr, w', r) -> exists x, tr = [x] /\ forall m, error w x = Some m -> exists e, r = Err e /\ words x m e) -> tells p.
Proof.
  intros A p HS H1. split; [exact HS|]. intros w tr w' r a x b m H HT HA HE. destruct (H1 _ _ _ _ H) as (y & -> & HY).
  destruct a as [|z a]; [|destruct a; discriminate]. injection HT as <- <-. destruct (HY _ HE) as (e & H2 & H3). exists e. split; [exact H2|]. split; [exact H3|now left].
Qed.

Section Exam.
Context (db : database W).
Context (HE : forall w, fst (db_execute db w) = see w query /\ (forall ms, snd (db_execute db w) = inl ms -> fine w query))
  (HC : forall w n it, fst (db_create db w n it) = see w (create n it) /\ (snd (db_create db w n it) = None -> fine w (create n it)))
  (HD : forall w n it, fst (db_drop db w n it) = see w (drop n it) /\ (snd (db_drop db w n it) = None -> fine w (drop n it)))
  (FE : forall w, fine w query -> exists ms, snd (db_execute db w) = inl ms)
  (TE : forall w m, error w query = Some m -> exists e, snd (db_execute db w) = inr e /\ words query m e)
  (TC : forall w n it m, error w (create n it) = Some m -> exists e, snd (db_create db w n it) = Some e /\ words (create n it) m e)
  (TD : forall w n it m, error w (drop n it) = Some m -> exists e, snd (db_drop db w n it) = Some e /\ words (drop n it) m (lit "failed to drop index: " ++ e)).
Lemma examine_tells : forall w id rnd it evs w' r a x b m, examine db w id rnd it = (evs, w', r) ->
    map (statement create drop query) evs = a ++ x :: b -> all_fine see fine w a -> error (replay see w a) x = Some m ->
    exists e, r = Err e /\ words x m e /\ after a x b.
Proof.
  intros w id rnd it evs w' r a x b m H HT HA HX. unfold examine in H. set (n := idx_name id rnd it) in *.
  pose proof (HC w n it) as [C1 _]. pose proof (TC w n it) as C2. destruct (db_create db w n it) as [w1 ce]. cbn [fst snd] in C1, C2.
  destruct ce as [e|].
  { injection H as <- _ <-. cbn [map statement] in HT. destruct a as [|z a]; [|destruct a; discriminate]. injection HT as <- <-.
    destruct (C2 m HX) as (e' & K & K2). injection K as <-. exists e. split; [reflexivity|]. split; [exact K2|now left]. }
  pose proof (HE w1) as [E1 _]. pose proof (TE w1) as E2. pose proof (FE w1) as E3. destruct (db_execute db w1) as [w2 ex]. cbn [fst snd] in E1, E2, E3.
  pose proof (TD w2 n it) as D2. destruct (db_drop db w2 n it) as [w3 de]. cbn [fst snd] in D2.
  assert (HV : map (statement create drop query) evs = [create n it; query; drop n it]).
  { destruct ex as [ms|e]; [destruct de as [e|]|]; injection H as <- _ _; reflexivity. }
  rewrite HV in HT. destruct a as [|z1 a].
  { injection HT as <- <-. destruct (C2 m HX) as (e' & K & _). discriminate. }
  injection HT as <- HT. cbn [replay all_fine] in HX, HA. rewrite <- C1 in HX, HA. destruct HA as [_ HA]. destruct a as [|z2 a].
  { injection HT as <- <-. destruct (E2 m HX) as (e & K & K2). rewrite K in H. injection H as _ _ <-. exists e. split; [reflexivity|]. split; [exact K2|].
    right. exists [], n, it. split; [reflexivity|]. split; reflexivity. }
  injection HT as <- HT. cbn [replay all_fine] in HX, HA. rewrite <- E1 in HX, HA. destruct HA as [HQ _]. destruct a as [|z3 a]; [|destruct a; discriminate].
  injection HT as <- <-. destruct (E3 HQ) as (ms & ->). destruct (D2 m HX) as (e & -> & K2). injection H as _ _ <-. eexists. split; [reflexivity|].
  split; [exact K2|now left].
Qed.
Lemma loop_tells : forall its w id rnds k evs w' r a x b m, run_loop db w id rnds k its = (evs, w', r) ->
    map (statement create drop query) evs = a ++ x :: b -> all_fine see fine w a -> error (replay see w a) x = Some m ->
    exists e, r = Err e /\ words x m e /\ after a x b.
Proof.
  induction its as [|it its IH]; intros w id rnds k evs w' r a x b m H HT HA HX.
  - injection H as <- <- <-. destruct a; discriminate.
  - cbn [run_loop] in H. destruct (examine db w id (rnds k) it) as [[tr w1] r1] eqn:E1. destruct (examine_sound see fine db create drop query HE HC HD _ _ _ _ _ _ _ E1) as [S1 _].
    destruct r1 as [res|e1|].
    + destruct (run_loop db w1 id rnds (S k) its) as [[tr2 w2] r2] eqn:E2. injection H as <- <- <-. rewrite map_app in HT.
      destruct (app_parts _ _ _ _ _ _ HT) as [(c & K & _)|(c & -> & K)].
      * destruct (examine_tells _ _ _ _ _ _ _ _ _ _ _ E1 K HA HX) as (e & K2 & _). discriminate.
      * rewrite replay_app, S1 in HX. apply fine_app in HA as [_ HA]. rewrite S1 in HA.
        destruct (IH _ _ _ _ _ _ _ _ _ _ _ E2 K HA HX) as (e & -> & H2 & H3). exists e. split; [reflexivity|]. split; [exact H2|]. now apply after_more.
    + injection H as <- _ <-. destruct (examine_tells _ _ _ _ _ _ _ _ _ _ _ E1 HT HA HX) as (e & K & K2). exists e. split; [congruence|exact K2].
    + injection H as <- _ <-. destruct (examine_tells _ _ _ _ _ _ _ _ _ _ _ E1 HT HA HX) as (e & K & K2). discriminate.
Qed.
Lemma tells_examine : forall unix rnds vars its, tells (examine_with db create drop query unix rnds vars its).
Proof.
  intros unix rnds vars its. split; [apply (sound_examine see fine db create drop query HE HC HD)|].
  intros w tr w' r a x b m H HT HA HX. unfold examine_with in H. destruct (run db w unix rnds _) as [[evs w1] r1] eqn:E. injection H as <- _ <-.
  unfold run in E. pose proof (HE w) as [E1 _]. pose proof (TE w) as E2. destruct (db_execute db w) as [w2 ex]. cbn [fst snd] in E1, E2.
  destruct ex as [ms|e1].
  - destruct (run_loop db w2 _ rnds 0 _) as [[evs2 w3] r2] eqn:EL. injection E as <- _ <-. cbn [map statement] in HT. destruct a as [|z a].
    + injection HT as <- _. destruct (E2 m HX) as (e & K & _). discriminate.
    + injection HT as <- HT. cbn [replay all_fine] in HX, HA. rewrite <- E1 in HX, HA. destruct HA as [_ HA].
      destruct (loop_tells _ _ _ _ _ _ _ _ _ _ _ _ EL HT HA HX) as (e & -> & H2 & H3). exists e. split; [reflexivity|]. split; [exact H2|].
      exact (after_more [query] _ _ _ H3).
  - injection E as <- _ <-. cbn [map statement] in HT. destruct a as [|z a]; [|destruct a; discriminate]. injection HT as <- <-.
    destruct (E2 m HX) as (e & K & K2). injection K as <-. exists e1. split; [reflexivity|]. split; [exact K2|now left].
Qed.
End Exam.
Lemma tells_conclude : forall sv ex runs output html,
    (forall w b, fst (on_write sv w output b) = see w (AWrite output b) /\ (snd (on_write sv w output b) = None -> fine w (AWrite output b))) ->
    (forall w b m, error w (AWrite output b) = Some m -> snd (on_write sv w output b) = Some m /\ words (AWrite output b) m m) ->
    tells ex -> tells (conclude sv ex runs output html).
Proof.
  intros sv ex runs output html HW HX HT. unfold conclude. apply tells_andthen.
  - destruct runs; [apply tells_andthen; [exact HT|intros x; apply tells_give]|apply tells_give].
  - intros er. destruct output as [|c o]; [apply tells_give|]. apply tells_one.
    + intros w tr w' r H. pose proof (HW w (html er)) as [H1 H2].
      destruct (on_write sv w (c :: o) (html er)) as [w1 e]. cbn [fst snd] in H1, H2. injection H as <- <- <-. cbn [replay all_fine]. split; [auto|].
      intros (x & K). split; [|exact I]. destruct e; [discriminate|auto].
    + intros w tr w' r H. pose proof (HX w (html er)) as H1. destruct (on_write sv w (c :: o) (html er)) as [w1 e]. cbn [snd] in H1. injection H as <- _ <-.
      eexists. split; [reflexivity|]. intros m K. destruct (H1 m K) as [-> K2]. exists m. split; [reflexivity|exact K2].
Qed.
End Tells.

(** ** Databases *)
(** Marks leave what precedes them *)
Lemma expand_first : forall h q args r, existsb (N.eqb 63) h = false -> expand_marks (h ++ q) args = Ok r -> exists t, r = h ++ t.
Proof.
  induction h as [|c h IH]; intros q args r HN H; [exists r; reflexivity|]. cbn [existsb] in HN. apply orb_false_iff in HN as [HN1 HN2].
  cbn [app expand_marks] in H. rewrite N.eqb_sym, HN1 in H. destruct (expand_marks (h ++ q) args) as [s| |] eqn:E; try discriminate. injection H as <-.
  destruct (IH _ _ _ HN2 E) as (t & ->). exists t. reflexivity.
Qed.
Lemma rebind_first : forall h q n, existsb (N.eqb 63) h = false -> exists t, rebind n (h ++ q) = h ++ t.
Proof.
  induction h as [|c h IH]; intros q n HN; [eexists; reflexivity|]. cbn [existsb] in HN. apply orb_false_iff in HN as [HN1 HN2].
  cbn [app rebind]. rewrite N.eqb_sym, HN1. destruct (IH q n HN2) as (t & ->). exists t. reflexivity.
Qed.
Lemma mysql_request_first : forall h q s ts rq, existsb (N.eqb 63) h = false -> mysql_request (h ++ q) s ts = Ok rq -> exists t, fst rq = h ++ t.
Proof.
  intros h q s ts rq HN H. unfold mysql_request, sqlx_in in H. destruct (existsb is_empty_list _); [discriminate|].
  destruct (expand_marks (h ++ q) _) as [r| |] eqn:E; try discriminate. cbn [obind] in H. injection H as <-. cbn [fst]. eapply expand_first; eauto.
Qed.
Lemma pg_request_first : forall h q s ts rq, existsb (N.eqb 63) h = false -> pg_request (h ++ q) s ts = Ok rq -> exists t, fst rq = h ++ t.
Proof.
  intros h q s ts rq HN H. unfold pg_request in H. destruct (mysql_request (h ++ q) s ts) as [r| |] eqn:E; try discriminate. cbn [obind] in H. injection H as <-.
  cbn [fst]. destruct (mysql_request_first _ _ _ _ _ HN E) as (t & ->). now apply rebind_first.
Qed.

Section Sql.
Context {W : Type} (sv : world W) (create drop : gostring -> index_target -> gostring) (query : gostring) (kinds : list (gostring * gostring)).
Let words := sql_words create drop query kinds.
Let tells_sql {A} (p : @prog W A) := tells (sql_see sv) (sql_fine sv) (sql_error sv) words (fun n it => AExec (create n it)) (fun n it => AExec (drop n it)) (AExec query) p.
Lemma tells_select : forall A first message q args (f : row -> outcome A), In (first, message) kinds -> (exists t, q = first ++ t) ->
    tells_sql (select_as sv message (q, args) f).
Proof.
  intros A first message q args f HK (t & HQ). apply tells_one; [apply sound_select|]. intros w tr w' r H. unfold select_as in H.
  destruct (on_select sv w (q, args)) as [w1 a] eqn:E. injection H as <- _ <-. exists (ASelect (q, args)). split; [reflexivity|]. intros m HM. cbn [sql_error] in HM. rewrite E in HM. cbn [snd] in HM.
  destruct a as [rows|e|]; try discriminate. injection HM as <-. exists (message ++ e). split; [reflexivity|]. exists first, message, t. split; [exact HK|]. split; [exact HQ|reflexivity].
Qed.
Lemma exec_told : forall w s m, sql_error sv w (AExec s) = Some m -> snd (exec sv w s) = inr (lit "failed to execute query: " ++ s ++ lit ": " ++ m).
Proof.
  intros w s m H. cbn [sql_error] in H. unfold exec. destruct (on_exec sv w s) as [w1 [ms|e]]; [discriminate|]. cbn [snd] in *. injection H as <-.
  unfold exec_message. now rewrite <- !app_assoc.
Qed.
Lemma exec_only_told : forall w s m, sql_error sv w (AExec s) = Some m -> snd (exec_only sv w s) = Some (lit "failed to execute query: " ++ s ++ lit ": " ++ m).
Proof.
  intros w s m H. apply exec_told in H. unfold exec_only. destruct (exec sv w s) as [w1 a]. cbn [snd] in H. rewrite H. reflexivity.
Qed.
Lemma tells_sql_examine : forall ex unix rnds vars its,
    (forall w, db_execute ex w = exec sv w query) -> (forall w n it, db_create ex w n it = exec_only sv w (create n it)) ->
    (forall w n it, db_drop ex w n it = exec_only sv w (drop n it)) ->
    tells_sql (examine_with ex (fun n it => AExec (create n it)) (fun n it => AExec (drop n it)) (AExec query) unix rnds vars its).
Proof.
  intros ex unix rnds vars its HE HC HD. apply tells_examine.
  - intros w. rewrite HE. apply exec_fine.
  - intros w n it. rewrite HC. apply exec_only_fine.
  - intros w n it. rewrite HD. apply exec_only_fine.
  - intros w (ms & H). rewrite HE. unfold exec. destruct (on_exec sv w query) as [w1 a]. cbn [snd] in *. rewrite H. exists ms. reflexivity.
  - intros w m H. rewrite HE. eexists. split; [exact (exec_told _ _ _ H)|]. left. split; [now left|reflexivity].
  - intros w n it m H. rewrite HC. eexists. split; [exact (exec_only_told _ _ _ H)|]. left. split; [right; exists n, it; reflexivity|reflexivity].
  - intros w n it m H. rewrite HD. eexists. split; [exact (exec_only_told _ _ _ H)|]. right. split; [exists n, it; reflexivity|]. rewrite app_assoc. reflexivity.
Qed.
Lemma tells_sql_conclude : forall ex runs output html, tells_sql ex -> tells_sql (conclude sv ex runs output html).
Proof.
  intros ex runs output html H. apply tells_conclude; [intros w b; split; auto| |exact H]. intros w b m K. split; [exact K|reflexivity].
Qed.
(** the whole command: what precedes the connection asks nobody *)
Lemma connection_told : forall A c (p : prog A), tells_sql p -> forall w tr w' r a x b m, with_connection sv c p w = (tr, w', r) -> tr = a ++ x :: b ->
    all_fine (sql_see sv) (sql_fine sv) w a -> sql_error sv (replay (sql_see sv) w a) x = Some m ->
    exists e, r = Err e /\ words x m e /\
      match a with
      | [] => x = AOpen c /\ b = []
      | _ => exists b', b = b' ++ [AClose] /\ nothing_but_drop (fun n it => AExec (create n it)) (fun n it => AExec (drop n it)) (AExec query) a x b'
      end.
Proof.
  intros A c p [SP HP] w tr w' r a x b m H HT HA HX. unfold with_connection in H. destruct (on_open sv w c) as [w1 [e|]] eqn:E.
  - injection H as <- _ <-. destruct a as [|z a]; [|destruct a; discriminate]. injection HT as <- <-. cbn [replay sql_error] in HX. rewrite E in HX. injection HX as <-.
    eexists. split; [reflexivity|]. split; [reflexivity|]. split; reflexivity.
  - destruct (p w1) as [[tr1 w2] r1] eqn:E1. injection H as <- _ <-. destruct a as [|z a].
    { injection HT as <- _. cbn [replay sql_error] in HX. rewrite E in HX. discriminate. }
    injection HT as <- HT. cbn [replay all_fine sql_see] in HX, HA. rewrite E in HX, HA. cbn [fst] in HX, HA. destruct HA as [_ HA].
    destruct (app_parts _ _ _ _ _ _ HT) as [(d & K & ->)|(d & _ & K)].
    + destruct (HP _ _ _ _ _ _ _ _ E1 K HA HX) as (e & -> & K2 & K3). exists e. split; [reflexivity|]. split; [exact K2|]. exists d. split; [reflexivity|].
      exact (after_more _ _ _ [AOpen c] _ _ _ K3).
    + destruct d as [|z d]; [|destruct d; discriminate]. injection K as <- _. discriminate.
Qed.
End Sql.

Theorem mysql_fault_told : forall W (sv : world W) fold so ord ordf srt unix rnds runs texts query output low parse env w tr w' r a x b m,
    mysql_main sv fold so ord ordf srt unix rnds runs texts query output low parse env w = (tr, w', r) ->
    tr = a ++ x :: b -> all_fine (sql_see sv) (sql_fine sv) w a -> sql_error sv (replay (sql_see sv) w a) x = Some m ->
    exists e, r = Err e /\ sql_words mysql_create_sql mysql_drop_sql query mysql_kinds x m e /\
      match a with
      | [] => (exists c, x = AOpen c) /\ b = []
      | _ => exists b', b = b' ++ [AClose] /\
               nothing_but_drop (fun n it => AExec (mysql_create_sql n it)) (fun n it => AExec (mysql_drop_sql n it)) (AExec query) a x b'
      end.
Proof.
  intros W sv fold so ord ordf srt unix rnds runs texts query output low parse env w tr w' r a x b m H HT HA HX.
  unfold mysql_main in H. destruct (ConnText.my_config_from_env env) as [c|e|]; [|injection H as <- _ _; destruct a; discriminate|injection H as <- _ _; destruct a; discriminate].
  cbn [andthen give] in H. unfold andthen, give in H.
  destruct (with_connection sv _ _ w) as [[tr1 w1] r1] eqn:E. injection H as <- _ <-.
  refine (_ (connection_told sv mysql_create_sql mysql_drop_sql query mysql_kinds _ _ _ _ w tr1 w1 r1 a x b m E HT HA HX)).
  { intros (e & H1 & H2 & H3). exists e. split; [exact H1|]. split; [exact H2|]. destruct a; [|exact H3]. destruct H3 as [-> ->]. split; [eexists; reflexivity|reflexivity]. }
  unfold mysql_suggest_cmd. apply tells_given. intros vars _. apply tells_andthen.
  { unfold mysql_explain. apply tells_andthen; [|intros l; apply tells_give]. apply (tells_select sv _ _ _ mysql_kinds _ (lit "EXPLAIN ")); [now left|]. eexists. reflexivity. }
  intros plan. apply tells_andthen; [|intros its; apply tells_sql_conclude; apply tells_sql_examine; reflexivity].
  unfold mysql_suggest_with. apply tells_given. intros stmts _. destruct stmts as [|root rest]; [apply tells_give|].
  apply tells_given. intros tables _. apply tells_andthen.
  { unfold mysql_ask_columns. apply tells_given. intros [q args] HR.
    set (h := nth 1 (map fst mysql_kinds) []). apply (tells_select sv _ _ _ mysql_kinds _ h); [right; left; reflexivity|].
    apply (mysql_request_first h (skipn (length h) mysql_column_template) _ _ (q, args)) in HR; [exact HR|vm_compute; reflexivity]. }
  intros rows. do 3 (apply tells_given; intros ? _). apply tells_andthen; [|intros; apply tells_give].
  unfold mysql_ask_indexes. apply tells_given. intros [q args] HR. apply tells_andthen; [|intros; apply tells_give].
  set (h := nth 2 (map fst mysql_kinds) []). apply (tells_select sv _ _ _ mysql_kinds _ h); [right; right; left; reflexivity|].
  apply (mysql_request_first h (skipn (length h) mysql_index_template) _ _ (q, args)) in HR; [exact HR|vm_compute; reflexivity].
Qed.
Theorem pg_fault_told : forall W (sv : world W) fold so ord ordf srt unix rnds runs texts query output norm parse env w tr w' r a x b m,
    pg_main sv fold so ord ordf srt unix rnds runs texts query output norm parse env w = (tr, w', r) ->
    tr = a ++ x :: b -> all_fine (sql_see sv) (sql_fine sv) w a -> sql_error sv (replay (sql_see sv) w a) x = Some m ->
    exists e, r = Err e /\ sql_words pg_create_sql pg_drop_sql query pg_kinds x m e /\
      match a with
      | [] => (exists c, x = AOpen c) /\ b = []
      | _ => exists b', b = b' ++ [AClose] /\
               nothing_but_drop (fun n it => AExec (pg_create_sql n it)) (fun n it => AExec (pg_drop_sql n it)) (AExec query) a x b'
      end.
Proof.
  intros W sv fold so ord ordf srt unix rnds runs texts query output norm parse env w tr w' r a x b m H HT HA HX.
  unfold pg_main in H. destruct (ConnText.pg_config_from_env env) as [c|e|]; [|injection H as <- _ _; destruct a; discriminate|injection H as <- _ _; destruct a; discriminate].
  cbn [andthen give] in H. unfold andthen, give in H.
  destruct (with_connection sv _ _ w) as [[tr1 w1] r1] eqn:E. injection H as <- _ <-.
  refine (_ (connection_told sv pg_create_sql pg_drop_sql query pg_kinds _ _ _ _ w tr1 w1 r1 a x b m E HT HA HX)).
  { intros (e & H1 & H2 & H3). exists e. split; [exact H1|]. split; [exact H2|]. destruct a; [|exact H3]. destruct H3 as [-> ->]. split; [eexists; reflexivity|reflexivity]. }
  unfold pg_suggest_cmd. apply tells_given. intros vars _. apply tells_andthen.
  { unfold pg_explain. apply tells_andthen; [|intros l; apply tells_give]. apply (tells_select sv _ _ _ pg_kinds _ (lit "EXPLAIN ")); [now left|]. eexists. reflexivity. }
  intros plan. apply tells_andthen; [|intros its; apply tells_sql_conclude; apply tells_sql_examine; reflexivity].
  unfold pg_suggest_with. apply tells_given. intros stmts _. destruct stmts as [|root [|root2 rest]]; [apply tells_give| |apply tells_give].
  do 2 (apply tells_given; intros ? _). apply tells_andthen.
  { unfold pg_ask_columns. apply tells_given. intros [q args] HR.
    set (h := nth 1 (map fst pg_kinds) []). apply (tells_select sv _ _ _ pg_kinds _ h); [right; left; reflexivity|].
    apply (pg_request_first h (skipn (length h) pg_column_template) _ _ (q, args)) in HR; [exact HR|vm_compute; reflexivity]. }
  intros rows. do 4 (apply tells_given; intros ? _). apply tells_andthen; [|intros; apply tells_give].
  unfold pg_ask_indexes. apply tells_given. intros [q args] HR.
  set (h := nth 2 (map fst pg_kinds) []). apply (tells_select sv _ _ _ pg_kinds _ h); [right; right; left; reflexivity|].
  apply (pg_request_first h (skipn (length h) pg_index_template) _ _ (q, args)) in HR; [exact HR|vm_compute; reflexivity].
Qed.

(** ** Hasura *)
Section Http.
Context {W : Type} (hv : hworld W) (unmarshal : gostring -> option jv) (kfold : rune -> rune).
Let see := http_see hv.
Let fine := http_fine hv unmarshal.
Let error := http_error hv.
Definition raw_json (sql : gostring) : jv := run_sql_json {| Hasura.rs_sql := sql; Hasura.rs_read_only := None |}.
Definition post_create (n : gostring) (it : index_target) : act := APost query_path (raw_json (pg_create_sql n it)).
Definition post_drop (n : gostring) (it : index_target) : act := APost query_path (raw_json (pg_drop_sql n it)).
Lemma post_told : forall w p j m, error w (APost p j) = Some m -> posted (snd (h_post hv w p j)) = Err m.
Proof.
  intros w p j m H. unfold error in H. cbn [http_error] in H. destruct (snd (h_post hv w p j)) as [e|n text]; [injection H as <-; reflexivity|].
  cbn [posted]. destruct (N.eqb_spec n 200) as [->|HN]; [discriminate|].
  assert (K : Some (of_string "Request to Hasura failed (Status=" ++ dec_of_N n ++ of_string "): " ++ text) = Some m).
  { rewrite <- H. clear H. destruct n as [|n]; [reflexivity|]. do 8 (destruct n as [n|n|]; try reflexivity). elim HN. reflexivity. }
  injection K as <-. reflexivity.
Qed.
Lemma tells_post : forall A query path body (read : gostring -> outcome A), (forall text x, read text = Ok x -> unmarshal text <> None) ->
    path <> lit "/v1/graphql" -> (forall n it, APost path body <> post_drop n it) ->
    tells see fine error (http_words post_drop) post_create post_drop query (andthen (post hv path body) (fun text => give (read text))).
Proof.
  intros A query path body read HR HP HD. apply tells_one; [now apply sound_post|]. intros w tr w' r H. exists (APost path body).
  unfold andthen, post in H. pose proof (post_told w path body) as HM. destruct (h_post hv w path body) as [[w1 ms] ans]. cbn [snd] in HM. split.
  - destruct (posted ans) as [text|e|]; injection H as <- _ _; reflexivity.
  - intros m HE. rewrite (HM m HE) in H. injection H as _ _ <-. exists m. split; [reflexivity|]. right. right. split; [exact HP|]. split; [|reflexivity].
    intros (n & it & K). exact (HD n it K).
Qed.
Theorem hasura_fault_told : forall fold so ord ordf srt unix rnds norm parse scan float parse_url env runs texts query variables output w tr w' r a x b m,
    hasura_main hv unmarshal kfold fold so ord ordf srt unix rnds norm parse scan float parse_url env runs texts query variables output w = (tr, w', r) ->
    tr = a ++ x :: b -> all_fine (http_see hv) (http_fine hv unmarshal) w a -> http_error hv (replay (http_see hv) w a) x = Some m ->
    exists e, r = Err e /\ http_words post_drop x m e /\ exists v, nothing_but_drop post_create post_drop (APost (lit "/v1/graphql") v) a x b.
Proof.
  intros fold so ord ordf srt unix rnds norm parse scan float parse_url env runs texts query variables output w tr w' r a x b m H HT HA HX.
  unfold hasura_main in H. destruct (parse_variables float unmarshal variables) as [v|e|]; [|injection H as <- _ _; destruct a; discriminate|injection H as <- _ _; destruct a; discriminate].
  assert (HL : tells see fine error (http_words post_drop) post_create post_drop (APost graphql_path (gql_json query v))
    (andthen (give (ConnText.hasura_config_from_env parse_url env)) (fun _ =>
       hasura_suggest_cmd hv unmarshal kfold fold so ord ordf srt unix rnds norm parse scan runs texts query variables output v))).
  { apply tells_given. intros c _.
    assert (HSql : forall q, tells see fine error (http_words post_drop) post_create post_drop (APost graphql_path (gql_json query v))
       (run_sql hv unmarshal kfold {| Hasura.rs_sql := q; Hasura.rs_read_only := Some true |})).
    { intros q. apply tells_post.
      - intros text y K HU. unfold result_of in K. rewrite HU in K. discriminate.
      - intros K. vm_compute in K. discriminate.
      - intros n it K. unfold post_drop, raw_json, run_sql_json in K. cbn [Hasura.rs_sql Hasura.rs_read_only] in K. injection K as _ K. discriminate. }
    unfold hasura_suggest_cmd. apply tells_andthen.
    { apply tells_post.
      - intros text y K HU. rewrite HU in K. discriminate.
      - intros K. vm_compute in K. discriminate.
      - intros n it K. unfold post_drop in K. injection K as K. vm_compute in K. discriminate. }
    intros res. destruct res as [|[ex|] [|? ?]]; try apply tells_give. apply tells_given. intros plan _. apply tells_andthen.
    { unfold suggest_for. apply tells_given. intros stmts _. destruct stmts as [|root [|root2 rest]]; [apply tells_give| |apply tells_give].
      do 2 (apply tells_given; intros ? _). apply tells_andthen.
      { unfold ask_columns. apply tells_given. intros q _. apply tells_andthen; [apply HSql|intros; apply tells_give]. }
      intros cols. do 4 (apply tells_given; intros ? _). apply tells_andthen; [|intros; apply tells_give].
      unfold ask_indexes. apply tells_given. intros q _. apply tells_andthen; [apply HSql|intros; apply tells_give]. }
    intros its. apply tells_given. intros vars _. apply tells_conclude.
    { intros w0 b0. split; auto. }
    { intros w0 b0 m0 K. split; [exact K|reflexivity]. }
    apply tells_examine.
    - intros w0. unfold see, fine. cbn [hasura_examiner db_execute http_see http_fine]. destruct (h_post hv w0 _ _) as [[w1 ms] ans]. cbn [fst snd]. split; [reflexivity|].
      destruct ans as [e|status text]; [discriminate|]. cbn [posted]. destruct (N.eqb_spec status 200) as [->|HN]; [|discriminate].
      intros ms' _. exists text. split; [reflexivity|now left].
    - intros w0 n it. apply raw_fine.
    - intros w0 n it. apply raw_fine.
    - intros w0 (text & K & _). cbn [hasura_examiner db_execute]. destruct (h_post hv w0 _ _) as [[w1 ms] ans]. cbn [snd] in *. rewrite K. exists ms. reflexivity.
    - intros w0 m0 K. apply post_told in K. cbn [hasura_examiner db_execute]. destruct (h_post hv w0 _ _) as [[w1 ms] ans]. cbn [snd] in *. rewrite K.
      eexists. split; [reflexivity|]. left. split; reflexivity.
    - intros w0 n it m0 K. apply post_told in K. cbn [hasura_examiner db_create]. unfold raw_json in K. destruct (h_post hv w0 _ _) as [[w1 ms] ans]. cbn [snd] in *. rewrite K.
      exists m0. split; [reflexivity|]. right. right. split; [intros L; vm_compute in L; discriminate|]. split; [|reflexivity].
      intros (n' & it' & L). unfold post_create, post_drop, raw_json, run_sql_json in L. cbn [Hasura.rs_sql Hasura.rs_read_only] in L. injection L as L. discriminate.
    - intros w0 n it m0 K. apply post_told in K. cbn [hasura_examiner db_drop]. unfold raw_json in K. destruct (h_post hv w0 _ _) as [[w1 ms] ans]. cbn [snd] in *. rewrite K.
      exists m0. split; [reflexivity|]. right. left. split; [exists n, it; reflexivity|reflexivity]. }
  destruct HL as [_ HL]. rewrite given_ok in H.
  destruct (HL _ _ _ _ _ _ _ _ H HT HA HX) as (e & H1 & H2 & H3). exists e. split; [exact H1|]. split; [exact H2|]. exists (gql_json query v). exact H3.
Qed.
End Http.

(** ** A server that runs so many statements, then refuses each with its number *)
Definition refusing {W} (sv : world W) (n : nat) (ms : list gostring) : world (W * nat) := {|
  on_open := fun w c => (fst (on_open sv (fst w) c), snd w, snd (on_open sv (fst w) c));
  on_select := fun w rq => (fst (on_select sv (fst w) rq), snd w, snd (on_select sv (fst w) rq));
  on_exec := fun w s => let k := snd w in
    (fst (on_exec sv (fst w) s), S k, if Nat.ltb k n then snd (on_exec sv (fst w) s) else match nth_error ms (k - n) with Some m => inr m | None => snd (on_exec sv (fst w) s) end);
  on_write := fun w p b => (fst (on_write sv (fst w) p b), snd w, snd (on_write sv (fst w) p b));
  on_close := fun w => (on_close sv (fst w), snd w) |}.
Definition my_ex (n : nat) (ms : list gostring) :=
  mysql_main (refusing ProgramMyProperties.ex_world n ms) IndexText.ascii_fold (fun l => l) BuildProperties.id_ord BuildProperties.id_ord BuildProperties.isort 7 (fun _ => 0%N)
    true [lit "users:email"] ProgramMyProperties.ex_query (lit "out.html") MysqlProperties.ascii_low (fun _ => Ok [MysqlProperties.ex_stmt]) ProgramMyProperties.ex_env (0, 0).
Definition pg_ex (n : nat) (ms : list gostring) :=
  pg_main (refusing ProgramPgProperties.ex_world n ms) IndexText.ascii_fold (fun l => l) BuildProperties.id_ord BuildProperties.id_ord BuildProperties.isort 7 (fun _ => 0%N)
    true [lit "users:email"] ProgramPgProperties.ex_query (lit "out.html") PgProperties.low (fun _ => Ok [PgProperties.ex_stmt]) ProgramPgProperties.ex_env (0, 0).
(** the second run of the query fails *)
Example mysql_fault_told_ex : exists tr w' a b,
  my_ex 2 [lit "timeout"] = (tr, w', Err (lit "failed to execute query: select ...: timeout")) /\
  tr = a ++ AExec ProgramMyProperties.ex_query :: b /\ length a = 6 /\ length b = 2 /\
  let sv := refusing ProgramMyProperties.ex_world 2 [lit "timeout"] in
  all_fine (sql_see sv) (sql_fine sv) (0, 0) a /\ sql_error sv (replay (sql_see sv) (0, 0) a) (AExec ProgramMyProperties.ex_query) = Some (lit "timeout").
Proof.
  do 2 eexists.
  exists (firstn 6 (fst (fst (my_ex 2 [lit "timeout"])))), (skipn 7 (fst (fst (my_ex 2 [lit "timeout"])))).
  split; [vm_compute; reflexivity|]. split; [vm_compute; reflexivity|]. split; [vm_compute; reflexivity|]. split; [vm_compute; reflexivity|].
  cbv zeta. split; [|vm_compute; reflexivity]. vm_compute. intuition eauto.
Qed.
(** the drop fails *)
Example pg_fault_told_ex : exists tr w' a b,
  pg_ex 3 [lit "locked"] = (tr, w', Err (lit "failed to drop index: failed to execute query: DROP INDEX ""7_email"": locked")) /\
  tr = a ++ AExec (pg_drop_sql (lit "7_email") (mk_it [] [])) :: b /\ length a = 7 /\ length b = 1 /\
  let sv := refusing ProgramPgProperties.ex_world 3 [lit "locked"] in
  all_fine (sql_see sv) (sql_fine sv) (0, 0) a /\ sql_error sv (replay (sql_see sv) (0, 0) a) (AExec (pg_drop_sql (lit "7_email") (mk_it [] []))) = Some (lit "locked").
Proof.
  do 2 eexists.
  exists (firstn 7 (fst (fst (pg_ex 3 [lit "locked"])))), (skipn 8 (fst (fst (pg_ex 3 [lit "locked"])))).
  split; [vm_compute; reflexivity|]. split; [vm_compute; reflexivity|]. split; [vm_compute; reflexivity|]. split; [vm_compute; reflexivity|].
  cbv zeta. split; [|vm_compute; reflexivity]. vm_compute. intuition eauto.
Qed.

(** the first run of the query is answered with another status *)
Definition failing {W} (hv : hworld W) (path text : gostring) : hworld W := {|
  h_post := fun w p j => if seqb p path then (fst (fst (h_post hv w p j)), 0%Z, Answer 503 text) else h_post hv w p j;
  h_write := h_write hv |}.
Definition ha_ex :=
  hasura_main (failing HasuraProgramProperties.ex_hworld (lit "/v1/graphql") (lit "busy")) HasuraProgramProperties.ex_answers IndexText.ascii_fold IndexText.ascii_fold (fun l => l)
    BuildProperties.id_ord BuildProperties.id_ord BuildProperties.isort 7 (fun _ => 0%N) PgProperties.low (fun _ => Ok [PgProperties.ex_stmt]) PgArray.array_in
    (fun q => Some q) (fun _ => Ok tt) HasuraProgramProperties.ex_env true [lit "users:email"] (lit "query { users { id } }") (lit "{}") (lit "out.html") 0.
Example hasura_fault_told_ex : exists tr w' a x,
  ha_ex = (tr, w', Err (lit "query for GraphQL failed: Request to Hasura failed (Status=503): busy")) /\
  tr = a ++ [x] /\ length a = 3 /\
  let hv := failing HasuraProgramProperties.ex_hworld (lit "/v1/graphql") (lit "busy") in
  all_fine (http_see hv) (http_fine hv HasuraProgramProperties.ex_answers) 0 a /\
  http_error hv (replay (http_see hv) 0 a) x = Some (lit "Request to Hasura failed (Status=503): busy").
Proof.
  do 2 eexists.
  exists (firstn 3 (fst (fst ha_ex))), (nth 3 (fst (fst ha_ex)) AClose).
  split; [vm_compute; reflexivity|]. split; [vm_compute; reflexivity|]. split; [vm_compute; reflexivity|].
  cbv zeta. split; [|vm_compute; reflexivity]. vm_compute. do 3 (split; [eexists; split; [reflexivity|right; discriminate]|]). exact I.
Qed.

(** Only the first failure is told: if the query fails with an index in place and the index
    cannot be dropped either, the error does not say that the index is still there. *)
Theorem every_fault_told_refuted :
  ~ (forall W (sv : world W) fold so ord ordf srt unix rnds runs texts query output low parse env w tr w' r a x b m,
       mysql_main sv fold so ord ordf srt unix rnds runs texts query output low parse env w = (tr, w', r) ->
       tr = a ++ x :: b -> sql_error sv (replay (sql_see sv) w a) x = Some m ->
       exists before after, r = Err (before ++ m ++ after)).
Proof.
  intros H.
  destruct (H _ (refusing ProgramMyProperties.ex_world 2 [lit "timeout"; lit "locked"]) IndexText.ascii_fold (fun l => l) BuildProperties.id_ord BuildProperties.id_ord BuildProperties.isort 7%N (fun _ => 0%N)
    true [lit "users:email"] ProgramMyProperties.ex_query (lit "out.html") MysqlProperties.ascii_low (fun _ => Ok [MysqlProperties.ex_stmt]) ProgramMyProperties.ex_env (0, 0)
    (fst (fst (my_ex 2 [lit "timeout"; lit "locked"]))) (snd (fst (my_ex 2 [lit "timeout"; lit "locked"]))) (snd (my_ex 2 [lit "timeout"; lit "locked"]))
    (firstn 7 (fst (fst (my_ex 2 [lit "timeout"; lit "locked"])))) (AExec (mysql_drop_sql (lit "7_email") (mk_it (lit "users") [])))
    (skipn 8 (fst (fst (my_ex 2 [lit "timeout"; lit "locked"])))) (lit "locked")) as (before & rest & K).
  - vm_compute. reflexivity.
  - vm_compute. reflexivity.
  - vm_compute. reflexivity.
  - assert (E : snd (my_ex 2 [lit "timeout"; lit "locked"]) = Err (lit "failed to execute query: select ...: timeout")) by (vm_compute; reflexivity).
    assert (K2 : lit "failed to execute query: select ...: timeout" = before ++ lit "locked" ++ rest) by congruence. assert (HK : existsb (N.eqb 107) (lit "failed to execute query: select ...: timeout") = true).
    { apply existsb_exists. exists 107%N. split; [|reflexivity]. rewrite K2. apply in_or_app. right. apply in_or_app. left. vm_compute. tauto. }
    vm_compute in HK. discriminate.
Qed.
Print Assumptions mysql_fault_told.
Print Assumptions pg_fault_told.
Print Assumptions hasura_fault_told.
Print Assumptions every_fault_told_refuted.
