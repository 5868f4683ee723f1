(** C134: the disk behind the five commands. *)
From Coq Require Import String List NArith ZArith QArith Bool Lia Arith.
From Verif Require Import Base IndexText IndexBuild Lib Otel Pi Json JsonSpec JsonProofs JsonProperties Examiner SuggestCmd CommandText HandOver HandOverSpec HandOverProperties
  Program ProgramSpec ProgramProofs DigProgram DigProgramSpec HtmlFile HtmlFileSpec HtmlFileProofs HtmlFileProperties OnDiskSpec.
From Verif Require HasuraProgram ConnText.
Import ListNotations.
Local Open Scope nat_scope.

Definition writes_nothing (tr : list act) : Prop := forall p b, ~ In (AWrite p b) tr.

Section Run.
Context {W : Type} (stp : W -> act -> W * option gostring) (output : gostring).

Lemma reached_app : forall a b w, reached stp (a ++ b) w = reached stp b (reached stp a w).
Proof. intros. unfold reached. apply fold_left_app. Qed.
(** The trace tells what reached the world. *)
Definition quiet {A} (p : @prog W A) : Prop := forall w tr w' r, p w = (tr, w', r) -> w' = reached stp tr w /\ writes_nothing tr.
Definition loud (p : @prog W unit) : Prop := forall w tr w' r, p w = (tr, w', r) -> w' = reached stp tr w /\
  (writes_nothing tr /\ (r = Ok tt -> output = []) \/
   output <> [] /\ exists before b after_, tr = before ++ AWrite output b :: after_ /\ writes_nothing before /\ writes_nothing after_ /\
     r = match snd (stp (reached stp before w) (AWrite output b)) with None => Ok tt | Some m => Err m end).

Lemma nothing_app : forall a b, writes_nothing a -> writes_nothing b -> writes_nothing (a ++ b).
Proof. intros a b HA HB p x H. apply in_app_or in H. destruct H as [H|H]; [exact (HA _ _ H)|exact (HB _ _ H)]. Qed.
Lemma quiet_give : forall A (x : outcome A), quiet (give x).
Proof. intros A x w tr w' r H. injection H as <- <- <-. split; [reflexivity|intros p b []]. Qed.
Lemma quiet_then : forall A B (p : prog A) (f : A -> prog B), quiet p -> (forall x, quiet (f x)) -> quiet (andthen p f).
Proof.
  intros A B p f HP HF w tr w' r H. apply andthen_inv in H. destruct H as (tr1 & w1 & r1 & E1 & H). destruct (HP _ _ _ _ E1) as [-> N1].
  destruct r1 as [x|m|].
  - destruct H as (tr2 & E2 & ->). destruct (HF x _ _ _ _ E2) as [-> N2]. rewrite reached_app. split; [reflexivity|now apply nothing_app].
  - destruct H as (-> & -> & _). auto.
  - destruct H as (-> & -> & _). auto.
Qed.
Lemma loud_then : forall A (p : prog A) (f : A -> prog unit), quiet p -> (forall x, loud (f x)) -> loud (andthen p f).
Proof.
  intros A p f HP HF w tr w' r H. apply andthen_inv in H. destruct H as (tr1 & w1 & r1 & E1 & H). destruct (HP _ _ _ _ E1) as [-> N1].
  destruct r1 as [x|m|].
  - destruct H as (tr2 & E2 & ->). destruct (HF x _ _ _ _ E2) as [-> HL]. rewrite reached_app. split; [reflexivity|].
    destruct HL as [[N2 HR]|(HO & before & b & af & -> & N2 & N3 & HR)].
    + left. split; [now apply nothing_app|exact HR].
    + right. split; [exact HO|]. exists (tr1 ++ before), b, af. split; [apply app_assoc|]. split; [now apply nothing_app|]. split; [exact N3|]. rewrite reached_app. exact HR.
  - destruct H as (-> & -> & ->). split; [reflexivity|]. left. split; [exact N1|discriminate].
  - destruct H as (-> & -> & ->). split; [reflexivity|]. left. split; [exact N1|discriminate].
Qed.
Lemma quiet_loud : forall (p : prog unit), quiet p -> (forall w tr w' , p w <> (tr, w', Ok tt)) -> loud p.
Proof. intros p HP HN w tr w' r H. destruct (HP _ _ _ _ H) as [H1 H2]. split; [exact H1|]. left. split; [exact H2|]. intros ->. elim (HN _ _ _ H). Qed.
Lemma loud_panic : loud (give Panic).
Proof. apply quiet_loud; [apply quiet_give|discriminate]. Qed.
Lemma loud_err : forall m, loud (give (Err m)).
Proof. intros m. apply quiet_loud; [apply quiet_give|discriminate]. Qed.

(** An examination sends what it records. *)
Section Examine.
Context (db : database W) (create drop : gostring -> index_target -> act) (query : act).
Context (HC : forall w n it, fst (db_create db w n it) = fst (stp w (create n it)))
  (HD : forall w n it, fst (db_drop db w n it) = fst (stp w (drop n it)))
  (HQ : forall w, fst (db_execute db w) = fst (stp w query))
  (NC : forall n it p b, create n it <> AWrite p b) (ND : forall n it p b, drop n it <> AWrite p b) (NQ : forall p b, query <> AWrite p b).
Let sta := statement create drop query.
Lemma sta_writes : forall tr, writes_nothing (map sta tr).
Proof.
  intros tr p b H. apply in_map_iff in H. destruct H as (e & E & _). destruct e; cbn in E; [exact (NQ _ _ E)|exact (NC _ _ _ _ E)|exact (ND _ _ _ _ E)].
Qed.
Lemma examine_reached : forall w id rnd it tr w' r, examine db w id rnd it = (tr, w', r) -> w' = reached stp (map sta tr) w.
Proof.
  intros w id rnd it tr w' r H. unfold examine in H. pose proof (HC w (idx_name id rnd it) it) as H1.
  destruct (db_create db w (idx_name id rnd it) it) as [w1 [e|]]; cbn [fst] in H1.
  - injection H as <- <- <-. exact H1.
  - pose proof (HQ w1) as H2. destruct (db_execute db w1) as [w2 ex]; cbn [fst] in H2.
    pose proof (HD w2 (idx_name id rnd it) it) as H3. destruct (db_drop db w2 (idx_name id rnd it) it) as [w3 de]; cbn [fst] in H3.
    assert (E : w' = w3 /\ tr = [EvCreate (idx_name id rnd it) it None; EvExecute ex; EvDrop (idx_name id rnd it) it de]) by (destruct ex, de; injection H as <- <- <-; auto).
    destruct E as [-> ->]. unfold reached. cbn [map fold_left sta statement]. rewrite <- H1, <- H2, <- H3. reflexivity.
Qed.
Lemma loop_reached : forall its w id rnds k tr w' r, run_loop db w id rnds k its = (tr, w', r) -> w' = reached stp (map sta tr) w.
Proof.
  induction its as [|it its IH]; intros w id rnds k tr w' r H; cbn [run_loop] in H; [injection H as <- <- <-; reflexivity|].
  destruct (examine db w id (rnds k) it) as [[tr1 w1] r1] eqn:E1. apply examine_reached in E1. destruct r1 as [x|m|].
  - destruct (run_loop db w1 id rnds (S k) its) as [[tr2 w2] r2] eqn:E2. apply IH in E2. injection H as <- <- <-. rewrite map_app, reached_app. congruence.
  - injection H as <- <- <-. exact E1.
  - injection H as <- <- <-. exact E1.
Qed.
Lemma quiet_examine : forall unix rnds vars its, quiet (examine_with db create drop query unix rnds vars its).
Proof.
  intros unix rnds vars its w tr w' r H. unfold examine_with in H.
  destruct (run db w unix rnds (match vars with [] => filter is_safe its | _ => vars end)) as [[tr1 w1] r1] eqn:E1.
  injection H as <- <- <-. split; [|apply sta_writes]. unfold run in E1. pose proof (HQ w) as H1. destruct (db_execute db w) as [w2 ex]; cbn [fst] in H1.
  destruct ex as [ms|m]; [|injection E1 as <- <- <-; exact H1].
  destruct (run_loop db w2 _ _ _ _) as [[tr2 w3] r2] eqn:E2. apply loop_reached in E2. injection E1 as <- <- <-. cbn [map]. change (w3 = reached stp (map sta tr2) (fst (stp w query))). congruence.
Qed.
End Examine.

Lemma loud_conclude : forall (sv : world W), (forall w p b, on_write sv w p b = stp w (AWrite p b)) ->
  forall exam runs html, quiet exam -> loud (conclude sv exam runs output html).
Proof.
  intros sv HW exam runs html HE. unfold conclude. apply loud_then.
  - destruct runs; [apply quiet_then; [exact HE|intros; apply quiet_give]|apply quiet_give].
  - intros er w tr w' r H. destruct output as [|c o] eqn:EO.
    + injection H as <- <- <-. split; [reflexivity|]. left. split; [intros p b []|auto].
    + rewrite HW in H. destruct (stp w (AWrite (c :: o) (html er))) as [w1 e] eqn:ES. injection H as <- <- <-.
      split; [unfold reached; cbn [fold_left]; rewrite ES; reflexivity|]. right. split; [discriminate|].
      exists [], (html er), []. split; [reflexivity|]. split; [intros p b []|]. split; [intros p b []|]. cbn [reached fold_left]. rewrite ES. reflexivity.
Qed.

Context (num_text : Q -> gostring) (num_value : gostring -> option Q) (format : gostring -> outcome gostring) (h : host) (disk_of : W -> disk).
Lemma quiet_disk : saves num_text h disk_of stp -> forall tr w, writes_nothing tr -> disk_of (reached stp tr w) = disk_of w.
Proof.
  intros HS. induction tr as [|a tr IH]; intros w HN; [reflexivity|]. unfold reached. cbn [fold_left]. fold (reached stp tr (fst (stp w a))).
  rewrite IH; [|intros p b H; apply (HN p b); now right]. specialize (HS w a). destruct a; try exact HS. elim (HN path b). now left.
Qed.
Lemma loud_disk : forall (p : prog unit), loud p -> saves num_text h disk_of stp ->
  forall w tr w' r, p w = (tr, w', r) -> (forall b, In (AWrite output b) tr -> readable_report num_text num_value format h b) ->
    w' = reached stp tr w /\
    (output = [] -> disk_of w' = disk_of w) /\
    (output <> [] -> left_on_disk num_value format h (fun b => In (AWrite output b) tr) output (disk_of w) (disk_of w') r).
Proof.
  intros p HP HS w tr w' r H HR. destruct (HP _ _ _ _ H) as [E HL]. split; [exact E|]. subst w'.
  destruct HL as [[HN HO]|(HO & before & b & af & Et & N1 & N2 & Er)].
  - rewrite (quiet_disk HS) by exact HN. split; [reflexivity|]. intros Ho. split; [reflexivity|]. destruct r as [[]|m|]; [elim Ho; auto|now left|now left].
  - split; [contradiction|]. intros _.
    assert (HB : In (AWrite output b) tr) by (rewrite Et; apply in_or_app; right; now left). specialize (HR b HB). destruct HR as (R1 & R2 & R3).
    pose proof (HS (reached stp before w) (AWrite output b)) as HC. cbv beta iota in HC. rewrite (quiet_disk HS before) in HC by exact N1.
    assert (HT : report_try num_value format h output b (disk_of w) (disk_of (reached stp tr w)) (snd (stp (reached stp before w) (AWrite output b)))).
    { apply (report_file num_text num_value format h output b (disk_of w)); auto. rewrite HC. f_equal.
      rewrite Et, reached_app. unfold reached at 2. cbn [fold_left]. fold (reached stp af (fst (stp (reached stp before w) (AWrite output b)))).
      rewrite (quiet_disk HS) by exact N2. reflexivity. }
    destruct HT as [T1 T2]. split; [exact T1|].
    destruct (snd (stp (reached stp before w) (AWrite output b))) as [m|]; subst r.
    + destruct T2 as [[T2 _]|((m' & ->) & part & rest & T2 & T3)]; [now left|]. right. exists b, part, rest, m'. auto.
    + destruct T2 as (text & T2 & T3). exists b, text. auto.
Qed.
End Run.

(** ** The suggest commands *)
Ltac hush := repeat first [apply quiet_then; [|intros ?] | apply quiet_give].

Section Sql.
Context {W : Type} (sv : world W) (fold : rune -> rune) (so : list gostring -> list gostring)
  (ord : order gostring) (ordf : order ifield) (srt : list index_target_table -> list index_target_table)
  (unix : N) (rnds : nat -> N) (runs : bool) (texts : list gostring) (query output : gostring).
Context (num_text : Q -> gostring) (num_value : gostring -> option Q) (format : gostring -> outcome gostring) (h : host) (disk_of : W -> disk).

Lemma quiet_select : forall A message rq (f : SqlServer.row -> outcome A), quiet (sql_step sv) (select_as sv message rq f).
Proof.
  intros A message rq f w tr w' r H. rewrite select_as_run in H. injection H as <- <- <-. split; [reflexivity|]. intros p b [E|[]]. discriminate.
Qed.
Lemma exec_step : forall w s, fst (exec_only sv w s) = fst (sql_step sv w (AExec s)).
Proof. intros w s. unfold exec_only, exec. cbn [sql_step fst]. destruct (on_exec sv w s) as [w1 [ms|m]]; reflexivity. Qed.
Lemma query_step : forall w, fst (exec sv w query) = fst (sql_step sv w (AExec query)).
Proof. intros w. unfold exec. cbn [sql_step fst]. destruct (on_exec sv w query) as [w1 [ms|m]]; reflexivity. Qed.
Lemma loud_connection : forall c (p : prog unit), loud (sql_step sv) output p -> loud (sql_step sv) output (with_connection sv c p).
Proof.
  intros c p HP w tr w' r H. unfold with_connection in H. destruct (on_open sv w c) as [w1 [m|]] eqn:EO.
  - injection H as <- <- <-. split; [unfold reached; cbn [fold_left sql_step]; rewrite EO; reflexivity|]. left. split; [intros p0 b [E|[]]; discriminate|discriminate].
  - destruct (p w1) as [[tr2 w2] r2] eqn:EP. injection H as <- <- <-. destruct (HP _ _ _ _ EP) as [-> HL].
    assert (E1 : fst (sql_step sv w (AOpen c)) = w1) by (cbn [sql_step fst]; rewrite EO; reflexivity).
    split.
    + change (reached (sql_step sv) (AOpen c :: tr2 ++ [AClose]) w) with (reached (sql_step sv) (tr2 ++ [AClose]) (fst (sql_step sv w (AOpen c)))).
      rewrite reached_app, E1. reflexivity.
    + destruct HL as [[N2 HR]|(HO & before & b & af & -> & N2 & N3 & HR)].
      * left. split; [|exact HR]. intros p0 b [E|H]; [discriminate|]. apply in_app_or in H. destruct H as [H|[E|[]]]; [exact (N2 _ _ H)|discriminate].
      * right. split; [exact HO|]. exists (AOpen c :: before), b, (af ++ [AClose]). split; [cbn [app]; rewrite <- app_assoc; reflexivity|].
        split; [intros p0 b0 [E|H]; [discriminate|exact (N2 _ _ H)]|]. split; [apply nothing_app; [exact N3|intros p0 b0 [E|[]]; discriminate]|].
        change (reached (sql_step sv) (AOpen c :: before) w) with (reached (sql_step sv) before (fst (sql_step sv w (AOpen c)))). rewrite E1. exact HR.
Qed.

Theorem mysql_on_disk : forall low parse env w tr w' r,
    mysql_main sv fold so ord ordf srt unix rnds runs texts query output low parse env w = (tr, w', r) ->
    saves num_text h disk_of (sql_step sv) ->
    (forall b, In (AWrite output b) tr -> readable_report num_text num_value format h b) ->
    w' = reached (sql_step sv) tr w /\
    (output = [] -> disk_of w' = disk_of w) /\
    (output <> [] -> left_on_disk num_value format h (fun b => In (AWrite output b) tr) output (disk_of w) (disk_of w') r).
Proof.
  intros low parse env w tr w' r H HS HR.
  refine (loud_disk (sql_step sv) output num_text num_value format h disk_of _ _ HS w tr w' r H HR).
  unfold mysql_main. apply loud_then; [apply quiet_give|]. intros c. apply loud_connection.
  unfold mysql_suggest_cmd. apply loud_then; [apply quiet_give|]. intros vars.
  apply loud_then; [unfold mysql_explain; hush; apply quiet_select|]. intros plan.
  apply loud_then.
  { unfold mysql_suggest_with. apply quiet_then; [apply quiet_give|]. intros [|root rest]; [apply quiet_give|].
    unfold mysql_ask_columns, mysql_ask_indexes. hush; apply quiet_select. }
  intros its. apply loud_conclude; [reflexivity|]. apply quiet_examine; try discriminate.
  - intros w0 n it. apply exec_step.
  - intros w0 n it. apply exec_step.
  - intros w0. apply query_step.
Qed.
Theorem pg_on_disk : forall norm parse env w tr w' r,
    pg_main sv fold so ord ordf srt unix rnds runs texts query output norm parse env w = (tr, w', r) ->
    saves num_text h disk_of (sql_step sv) ->
    (forall b, In (AWrite output b) tr -> readable_report num_text num_value format h b) ->
    w' = reached (sql_step sv) tr w /\
    (output = [] -> disk_of w' = disk_of w) /\
    (output <> [] -> left_on_disk num_value format h (fun b => In (AWrite output b) tr) output (disk_of w) (disk_of w') r).
Proof.
  intros norm parse env w tr w' r H HS HR.
  refine (loud_disk (sql_step sv) output num_text num_value format h disk_of _ _ HS w tr w' r H HR).
  unfold pg_main. apply loud_then; [apply quiet_give|]. intros c. apply loud_connection.
  unfold pg_suggest_cmd. apply loud_then; [apply quiet_give|]. intros vars.
  apply loud_then; [unfold pg_explain; hush; apply quiet_select|]. intros plan.
  apply loud_then.
  { unfold pg_suggest_with. apply quiet_then; [apply quiet_give|]. intros [|root [|x rest]]; [apply quiet_give| |apply quiet_give].
    unfold pg_ask_columns, pg_ask_indexes. hush; apply quiet_select. }
  intros its. apply loud_conclude; [reflexivity|]. apply quiet_examine; try discriminate.
  - intros w0 n it. apply exec_step.
  - intros w0 n it. apply exec_step.
  - intros w0. apply query_step.
Qed.
End Sql.

Section HasuraDisk.
Context {W : Type} (hv : HasuraProgram.hworld W) (unmarshal : gostring -> option jv) (kfold fold : rune -> rune) (so : list gostring -> list gostring)
  (ord : order gostring) (ordf : order ifield) (srt : list index_target_table -> list index_target_table)
  (unix : N) (rnds : nat -> N) (runs : bool) (texts : list gostring) (query variables output : gostring).
Context (num_text : Q -> gostring) (num_value : gostring -> option Q) (format : gostring -> outcome gostring) (h : host) (disk_of : W -> disk).
Lemma quiet_post : forall path body, quiet (hasura_step hv) (HasuraProgram.post hv path body).
Proof.
  intros path body w tr w' r H. unfold HasuraProgram.post in H. destruct (HasuraProgram.h_post hv w path body) as [[w1 ms] a] eqn:E. injection H as <- <- <-.
  split; [unfold reached; cbn [fold_left hasura_step fst]; rewrite E; reflexivity|]. intros p b [E1|[]]. discriminate.
Qed.
Theorem hasura_on_disk : forall norm parse scan float parse_url env w tr w' r,
    HasuraProgram.hasura_main hv unmarshal kfold fold so ord ordf srt unix rnds norm parse scan float parse_url env runs texts query variables output w = (tr, w', r) ->
    saves num_text h disk_of (hasura_step hv) ->
    (forall b, In (AWrite output b) tr -> readable_report num_text num_value format h b) ->
    w' = reached (hasura_step hv) tr w /\
    (output = [] -> disk_of w' = disk_of w) /\
    (output <> [] -> left_on_disk num_value format h (fun b => In (AWrite output b) tr) output (disk_of w) (disk_of w') r).
Proof.
  intros norm parse scan float parse_url env w tr w' r H HS HR.
  refine (loud_disk (hasura_step hv) output num_text num_value format h disk_of _ _ HS w tr w' r H HR).
  unfold HasuraProgram.hasura_main. apply loud_then; [apply quiet_give|]. intros v. apply loud_then; [apply quiet_give|]. intros _.
  unfold HasuraProgram.hasura_suggest_cmd. apply loud_then; [unfold HasuraProgram.explain_gql; hush; apply quiet_post|].
  intros [|[r0|] [|x rest]]; try apply loud_panic; try apply loud_err.
  apply loud_then; [apply quiet_give|]. intros plan. apply loud_then.
  { unfold HasuraProgram.suggest_for. apply quiet_then; [apply quiet_give|]. intros [|root [|x rest]]; [apply quiet_give| |apply quiet_give].
    unfold HasuraProgram.ask_columns, HasuraProgram.ask_indexes, HasuraProgram.run_sql. hush; apply quiet_post. }
  intros its. apply loud_then; [apply quiet_give|]. intros vars. apply loud_conclude; [reflexivity|]. apply quiet_examine; try discriminate.
  - intros w0 n it. cbn [HasuraProgram.hasura_examiner db_create hasura_step]. destruct (HasuraProgram.h_post hv w0 _ _) as [[w1 ms] a]. reflexivity.
  - intros w0 n it. cbn [HasuraProgram.hasura_examiner db_drop hasura_step]. destruct (HasuraProgram.h_post hv w0 _ _) as [[w1 ms] a]. reflexivity.
  - intros w0. cbn [HasuraProgram.hasura_examiner db_execute hasura_step]. destruct (HasuraProgram.h_post hv w0 _ _) as [[w1 ms] a]. reflexivity.
Qed.
End HasuraDisk.

(** ** The dig commands *)
Section Dig.
Context {W : Type} (sv : services W) (output : gostring).
Definition creates_nothing (tr : list exchange) : Prop := forall p b m, ~ In (said (GCreate p b) m) tr.
Definition dquiet {A} (p : @dprog W A) : Prop := forall w tr w' r, p w = (tr, w', r) -> answered_by sv w tr w' /\ creates_nothing tr.
Definition dloud (none : Prop) (p : @dprog W unit) : Prop := forall w tr w' r, p w = (tr, w', r) -> answered_by sv w tr w' /\
  (creates_nothing tr /\ (r = Ok tt -> none) \/
   ~ none /\ exists before b m after_, tr = before ++ said (GCreate output b) m :: after_ /\ creates_nothing before /\ creates_nothing after_ /\ r = failed_with m).

Lemma creates_app : forall a b, creates_nothing a -> creates_nothing b -> creates_nothing (a ++ b).
Proof. intros a b HA HB p x m H. apply in_app_or in H. destruct H as [H|H]; [exact (HA _ _ _ H)|exact (HB _ _ _ H)]. Qed.
Lemma ans_app : forall a b w w1 w2, answered_by sv w a w1 -> answered_by sv w1 b w2 -> answered_by sv w (a ++ b) w2.
Proof.
  induction a as [|[x y] a IH]; intros b w w1 w2 H1 H2; cbn [answered_by app] in *; [now subst w1|].
  destruct H1 as [E H1]. split; [exact E|]. eapply IH; eauto.
Qed.
Lemma ans_cut : forall a b w w2, answered_by sv w (a ++ b) w2 -> exists w1, answered_by sv w a w1 /\ answered_by sv w1 b w2.
Proof.
  induction a as [|[x y] a IH]; intros b w w2 H; cbn [answered_by app] in *; [eauto|].
  destruct H as [E H]. destruct (IH _ _ _ H) as (w1 & H1 & H2). eauto.
Qed.
Lemma dquiet_give : forall A (x : outcome A), dquiet (dgive x).
Proof. intros A x w tr w' r H. injection H as <- <- <-. split; [reflexivity|intros p b m []]. Qed.
Lemma dquiet_perform : forall a, (forall p b, a <> GCreate p b) -> dquiet (perform sv a).
Proof.
  intros a HN w tr w' r H. unfold perform in H. destruct (sv w a) as [w1 x] eqn:E. injection H as <- <- <-.
  split; [cbn [answered_by said]; rewrite E; auto|]. intros p b m [K|[]]. apply (f_equal (@projT1 _ _)) in K. cbn in K. exact (HN _ _ K).
Qed.
Lemma dthen_inv : forall {A B} (p : dprog A) (f : A -> dprog B) (w w' : W) tr r, dthen p f w = (tr, w', r) ->
    exists tr1 w1 r1, p w = (tr1, w1, r1) /\
      match r1 with
      | Ok x => exists tr2, f x w1 = (tr2, w', r) /\ tr = tr1 ++ tr2
      | Err m => tr = tr1 /\ w' = w1 /\ r = Err m
      | Panic => tr = tr1 /\ w' = w1 /\ r = Panic
      end.
Proof.
  intros A B p f w w' tr r H. unfold dthen in H. destruct (p w) as [[tr1 w1] [x|m|]]; exists tr1, w1; eexists; (split; [reflexivity|]); cbn beta iota in *.
  - destruct (f x w1) as [[tr2 w2] r2]. injection H as <- <- <-. exists tr2. auto.
  - injection H as <- <- <-. auto.
  - injection H as <- <- <-. auto.
Qed.
Lemma dquiet_then : forall A B (p : dprog A) (f : A -> dprog B), dquiet p -> (forall x, dquiet (f x)) -> dquiet (dthen p f).
Proof.
  intros A B p f HP HF w tr w' r H. apply dthen_inv in H. destruct H as (tr1 & w1 & r1 & E1 & H). destruct (HP _ _ _ _ E1) as [A1 N1].
  destruct r1 as [x|m|].
  - destruct H as (tr2 & E2 & ->). destruct (HF x _ _ _ _ E2) as [A2 N2]. split; [eapply ans_app; eauto|now apply creates_app].
  - destruct H as (-> & -> & _). auto.
  - destruct H as (-> & -> & _). auto.
Qed.
Lemma dloud_then : forall none A (p : dprog A) (f : A -> dprog unit), dquiet p -> (forall x, dloud none (f x)) -> dloud none (dthen p f).
Proof.
  intros none A p f HP HF w tr w' r H. apply dthen_inv in H. destruct H as (tr1 & w1 & r1 & E1 & H). destruct (HP _ _ _ _ E1) as [A1 N1].
  destruct r1 as [x|m|].
  - destruct H as (tr2 & E2 & ->). destruct (HF x _ _ _ _ E2) as [A2 HL]. split; [eapply ans_app; eauto|].
    destruct HL as [[N2 HR]|(HO & before & b & m & af & -> & N2 & N3 & HR)].
    + left. split; [now apply creates_app|exact HR].
    + right. split; [exact HO|]. exists (tr1 ++ before), b, m, af. split; [apply app_assoc|]. split; [now apply creates_app|]. split; [exact N3|exact HR].
  - destruct H as (-> & -> & ->). split; [exact A1|]. left. split; [exact N1|discriminate].
  - destruct H as (-> & -> & ->). split; [exact A1|]. left. split; [exact N1|discriminate].
Qed.
Lemma dloud_give : forall (none : Prop) (x : outcome unit), (x = Ok tt -> none) -> dloud none (dgive x).
Proof. intros none x HX w tr w' r H. injection H as <- <- <-. split; [reflexivity|]. left. split; [intros p b m []|exact HX]. Qed.
Lemma dloud_create : forall (none : Prop) b, ~ none -> dloud none (dthen (perform sv (GCreate output b)) (fun e => dgive (failed_with e))).
Proof.
  intros none b HN w tr w' r H. unfold dthen, perform, dgive in H. destruct (sv w (GCreate output b)) as [w1 e] eqn:E. injection H as <- <- <-.
  split; [cbn [answered_by said app]; rewrite E; auto|]. right. split; [exact HN|]. exists [], b, e, []. split; [reflexivity|]. split; [intros p0 b0 m0 []|]. split; [intros p0 b0 m0 []|reflexivity].
Qed.

Context (num_text : Q -> gostring) (num_value : gostring -> option Q) (format : gostring -> outcome gostring) (h : host) (disk_of : W -> disk).
Definition wrote (tr : list exchange) (b : build_option) : Prop := exists m, In (said (GCreate output b) m) tr.
Lemma dquiet_disk : dig_saves num_text h disk_of sv -> forall tr w w', answered_by sv w tr w' -> creates_nothing tr -> disk_of w' = disk_of w.
Proof.
  intros HS. induction tr as [|[a x] tr IH]; intros w w' HA HN; cbn [answered_by] in HA; [now subst w'|]. destruct HA as [_ HA].
  rewrite (IH _ _ HA); [|intros p b m H; apply (HN p b m); now right]. specialize (HS w a). destruct a; try exact HS. elim (HN path b x). now left.
Qed.
Lemma dloud_disk : forall none (p : dprog unit), dloud none p -> dig_saves num_text h disk_of sv ->
  forall w tr w' r, p w = (tr, w', r) -> (forall b, wrote tr b -> readable_report num_text num_value format h b) ->
    (none -> disk_of w' = disk_of w) /\
    (~ none -> left_on_disk num_value format h (wrote tr) output (disk_of w) (disk_of w') r).
Proof.
  intros none p HP HS w tr w' r H HR. destruct (HP _ _ _ _ H) as [HA HL].
  destruct HL as [[HN HO]|(HO & before & b & m & af & Et & N1 & N2 & Er)].
  - rewrite (dquiet_disk HS _ _ _ HA HN). split; [reflexivity|]. intros Ho. split; [reflexivity|]. destruct r as [[]|m|]; [elim Ho; auto|now left|now left].
  - split; [contradiction|]. intros _.
    assert (HB : wrote tr b) by (exists m; rewrite Et; apply in_or_app; right; now left). specialize (HR b HB). destruct HR as (R1 & R2 & R3).
    rewrite Et in HA. apply ans_cut in HA. destruct HA as (w1 & A1 & A2). cbn [answered_by said] in A2. destruct A2 as [Em A2].
    pose proof (HS w1 (GCreate output b)) as HC. cbv beta iota in HC. rewrite Em in HC. rewrite (dquiet_disk HS _ _ _ A1 N1) in HC.
    rewrite <- (dquiet_disk HS _ _ _ A2 N2) in HC.
    destruct (report_file num_text num_value format h output b (disk_of w) _ _ R1 R2 R3 HC) as [T1 T2]. split; [exact T1|].
    destruct m as [m|]; cbn [failed_with] in Er; subst r.
    + destruct T2 as [[T2 _]|((m' & ->) & part & rest & T2 & T3)]; [now left|]. right. exists b, part, rest, m'. auto.
    + destruct T2 as (text & T2 & T3). exists b, text. auto.
Qed.
End Dig.
Ltac dhush := repeat first [apply dquiet_then; [|intros ?] | apply dquiet_give | apply dquiet_perform; discriminate].

Section DigDisk.
Context {W : Type} (sv : services W).
Context (num_text : Q -> gostring) (num_value : gostring -> option Q) (format : gostring -> outcome gostring) (h : host) (disk_of : W -> disk).
Lemma jaeger_loud : forall ords srt ordc ordv ordt srtt parse_time env now fl,
    dloud sv (jf_output fl) (jf_output fl = []) (jaeger_main sv ords srt ordc ordv ordt srtt parse_time env now fl).
Proof.
  intros ords srt ordc ordv ordt srtt parse_time env now fl.
  unfold jaeger_main. apply dloud_then; [apply dquiet_give|]. intros p. unfold jaeger_run. apply dloud_then; [apply dquiet_perform; discriminate|].
  intros [m|]; [apply dloud_give; discriminate|].
  assert (HD : dloud sv (jf_output fl) (jf_output fl = []) (jaeger_dig sv ords srt ordc ordv ordt srtt fl (fst (snd p)) (fst (fst p)) (snd (fst p)))).
  { unfold jaeger_dig. destruct (generate_time_ranges _ _ _ _) as [times|]; [|apply dloud_give; discriminate].
    apply dloud_then.
    { generalize 0. induction times as [|t times IH]; intros j; cbn [fetch_all]; [apply dquiet_give|].
      apply dquiet_then; [apply dquiet_perform; discriminate|]. intros a. dhush. apply IH. }
    intros traces. apply dloud_then; [apply dquiet_give|]. intros slow.
    destruct (jf_output fl) as [|c o] eqn:EO; [apply dloud_give; auto|]. apply dloud_create. discriminate. }
  intros w0 tr0 w0' r0 H0. destruct (jaeger_dig sv ords srt ordc ordv ordt srtt fl (fst (snd p)) (fst (fst p)) (snd (fst p)) w0) as [[tr1 w1] r1] eqn:E1.
  destruct (sv w1 GHangUp) as [w2 x] eqn:E2. injection H0 as <- <- <-. destruct (HD _ _ _ _ E1) as [A1 HL].
  assert (NL : creates_nothing [said GHangUp x]) by (intros q b m [K|[]]; apply (f_equal (@projT1 _ _)) in K; discriminate K).
  split; [eapply ans_app; [exact A1|]; cbn [answered_by said]; rewrite E2; auto|].
  destruct HL as [[N2 HR2]|(HO & before & b & m & af & -> & N2 & N3 & HR2)].
  - left. split; [now apply creates_app|exact HR2].
  - right. split; [exact HO|]. exists before, b, m, (af ++ [said GHangUp x]). split; [rewrite <- app_assoc; reflexivity|]. split; [exact N2|]. split; [now apply creates_app|exact HR2].
Qed.
Theorem jaeger_on_disk : forall ords srt ordc ordv ordt srtt parse_time env now fl w tr w' r,
    jaeger_main sv ords srt ordc ordv ordt srtt parse_time env now fl w = (tr, w', r) ->
    dig_saves num_text h disk_of sv ->
    (forall b, wrote (jf_output fl) tr b -> readable_report num_text num_value format h b) ->
    (jf_output fl = [] -> disk_of w' = disk_of w) /\
    (jf_output fl <> [] -> left_on_disk num_value format h (wrote (jf_output fl) tr) (jf_output fl) (disk_of w) (disk_of w') r).
Proof.
  intros ords srt ordc ordv ordt srtt parse_time env now fl w tr w' r H HS HR.
  refine (dloud_disk sv (jf_output fl) num_text num_value format h disk_of _ _ (jaeger_loud _ _ _ _ _ _ _ _ _ _) HS w tr w' r H HR).
Qed.
Lemma pi_loud : forall vadd vlt vzero parse_time now start_text output, dloud sv output False (pi_main sv vadd vlt vzero parse_time now start_text output).
Proof.
  intros vadd vlt vzero parse_time now start_text output.
  unfold pi_main. apply dloud_then; [apply dquiet_perform; discriminate|]. intros a. apply dloud_then; [apply dquiet_give|]. intros dbs.
  apply dloud_then; [apply dquiet_give|]. intros start. apply dloud_then.
  { assert (HH : forall db s g k1 k2, dquiet sv (half_day_loads sv vzero db s g k1 k2)).
    { intros db s g k1 k2. unfold half_day_loads. dhush. }
    induction dbs as [|db dbs IH]; cbn [all_loads]; [apply dquiet_give|]. apply dquiet_then; [|intros x; dhush; exact IH].
    generalize start. generalize 14. induction n as [|n IHn]; intros s; cbn [db_loads]; [apply dquiet_give|].
    apply dquiet_then; [apply HH|intros a1]. apply dquiet_then; [apply HH|intros a2]. apply dquiet_then; [apply IHn|intros a3; apply dquiet_give]. }
  intros l. destruct (convert_loads vadd vlt 171 start (tadd start week) (fst l)) as [rows|]; [|apply dloud_give; discriminate].
  destruct (convert_loads vadd vlt 171 start (tadd start week) (snd l)) as [trows|]; [|apply dloud_give; discriminate].
  apply dloud_create. auto.
Qed.
(** Without an output the Performance Insights command tries to write to an empty path. *)
Theorem pi_on_disk : forall vadd vlt vzero parse_time now start_text output w tr w' r,
    pi_main sv vadd vlt vzero parse_time now start_text output w = (tr, w', r) ->
    dig_saves num_text h disk_of sv ->
    (forall b, wrote output tr b -> readable_report num_text num_value format h b) ->
    left_on_disk num_value format h (wrote output tr) output (disk_of w) (disk_of w') r.
Proof.
  intros vadd vlt vzero parse_time now start_text output w tr w' r H HS HR.
  refine (proj2 (dloud_disk sv output num_text num_value format h disk_of False _ (pi_loud _ _ _ _ _ _ _) HS w tr w' r H HR) (fun x => x)).
Qed.
End DigDisk.

Print Assumptions mysql_on_disk.
Print Assumptions pg_on_disk.
Print Assumptions hasura_on_disk.
Print Assumptions jaeger_on_disk.
Print Assumptions pi_on_disk.
