(** Without its lines a diary is the conversation of Program.v. *)
From Coq Require Import String List NArith ZArith QArith Bool Lia Arith Permutation.
From Verif Require Import Base Dec IndexText IndexBuild TableFields Existing ExplainTree PlanView SqlServer MetaSql Examiner SuggestCmd Json HandOver CommandText Program Paths Diary.
From Verif Require MysqlExplain PgExplain MysqlAst MysqlCollect PgAst PgCollect ConnText Hasura HasuraProgram ProgramProofs.
Import ListNotations.
Local Open Scope nat_scope.

Lemma acts_app : forall A (a b : list (entry A)), acts (a ++ b) = acts a ++ acts b.
Proof. induction a as [|[l t|x] a IH]; intros b; cbn; [reflexivity|apply IH|now rewrite IH]. Qed.
Lemma said_app : forall A (a b : list (entry A)), said (a ++ b) = said a ++ said b.
Proof. induction a as [|[l t|x] a IH]; intros b; cbn; [reflexivity|now rewrite IH|apply IH]. Qed.
Lemma acts_did : forall A (l : list A), acts (map Did l) = l.
Proof. induction l as [|x l IH]; cbn; congruence. Qed.
Lemma said_did : forall A (l : list A), said (map Did l) = [].
Proof. induction l as [|x l IH]; cbn; congruence. Qed.
Lemma acts_said : forall A (l : list (level * gostring)), acts (map (fun p => @Said A (fst p) (snd p)) l) = [].
Proof. induction l as [|x l IH]; cbn; congruence. Qed.
Lemma said_said : forall A (l : list (level * gostring)), said (map (fun p => @Said A (fst p) (snd p)) l) = l.
Proof. induction l as [|[x y] l IH]; cbn; congruence. Qed.

Definition hush {S A R} (x : list (entry A) * S * R) : list A * S * R := let '(d, w, r) := x in (acts d, w, r).
Section Examine.
Context {W : Type} (db : database W) (tord : list (gostring * list index_result) -> list (gostring * list index_result)) (rsrt : list index_result -> list index_result).
Lemma examine_hush : forall w id rnd it, hush (examine_told db w id rnd it) = examine db w id rnd it.
Proof.
  intros w id rnd it. unfold examine_told, examine. destruct (db_create db w _ it) as [w1 [e|]]; [reflexivity|].
  destruct (db_execute db w1) as [w2 ex]. destruct (db_drop db w2 _ it) as [w3 derr]. destruct ex, derr; reflexivity.
Qed.
Lemma loop_hush : forall its w id rnds k, hush (loop_told db w id rnds k its) = run_loop db w id rnds k its.
Proof.
  induction its as [|it its IH]; intros w id rnds k; [reflexivity|]. cbn [loop_told run_loop]. rewrite <- examine_hush.
  destruct (examine_told db w id (rnds k) it) as [[d w1] [res|e|]]; try reflexivity. unfold hush at 2. rewrite <- IH.
  destruct (loop_told db w1 id rnds (S k) its) as [[d' w2] r']. cbn. now rewrite acts_app.
Qed.
Lemma lines_hush : forall orig rs, acts (result_lines tord rsrt orig rs) = [].
Proof.
  intros orig rs. unfold result_lines. cbn. induction (tord (by_table rs)) as [|g l IH]; [reflexivity|]. cbn. rewrite acts_app, IH, app_nil_r.
  induction (rsrt (snd g)); cbn; auto.
Qed.
Lemma run_hush : forall w unix rnds its, hush (run_told db tord rsrt w unix rnds its) = run db w unix rnds its.
Proof.
  intros w unix rnds its. unfold run_told, run. destruct (db_execute db w) as [w1 [orig|e]]; [|reflexivity].
  rewrite <- loop_hush. destruct (loop_told db w1 (dec_of_N unix) rnds 0 its) as [[d w2] [rs|e|]]; cbn; try rewrite acts_app; try reflexivity.
  now rewrite lines_hush, app_nil_r.
Qed.
End Examine.

Section Run.
Context {W : Type}.
Definition hushed {A} (p : @noisy W A) (q : @prog W A) : Prop := forall w, hush (p w) = q w.
Lemma quiet_hush : forall {A} (p : @prog W A), hushed (quiet p) p.
Proof. intros A p w. unfold quiet. destruct (p w) as [[tr w1] r]. cbn. now rewrite acts_did. Qed.
Lemma nthen_hush : forall {A B} (p : @noisy W A) p' (f : A -> @noisy W B) f', hushed p p' -> (forall x, hushed (f x) (f' x)) -> hushed (nthen p f) (andthen p' f').
Proof.
  intros A B p p' f f' HP HF w. unfold nthen, andthen. rewrite <- HP. destruct (p w) as [[d w1] [x|m|]]; try reflexivity. cbn.
  rewrite <- HF. destruct (f x w1) as [[d' w2] r]. cbn. now rewrite acts_app.
Qed.
Lemma say_hush : forall {B} l (f : unit -> @noisy W B) q, hushed (f tt) q -> hushed (nthen (say l) f) q.
Proof.
  intros B l f q H w. unfold nthen, say. rewrite <- H. destruct (f tt w) as [[d w1] r]. cbn. now rewrite acts_app, acts_said.
Qed.
Lemma examine_aloud_hush : forall tord rsrt db c d q unix rnds vars its,
    hushed (examine_aloud tord rsrt db c d q unix rnds vars its) (examine_with (W := W) db c d q unix rnds vars its).
Proof.
  intros tord rsrt db c d q unix rnds vars its. apply say_hush. intros w. unfold examine_with. rewrite <- (run_hush db tord rsrt).
  destruct (run_told db tord rsrt w unix rnds _) as [[x w1] r]. cbn. f_equal. f_equal.
  induction x as [|[l t|e] x IH]; cbn; congruence.
Qed.
Lemma conclude_hush : forall sv wd ex ex' runs output html, hushed ex ex' -> hushed (conclude_aloud sv wd ex runs output html) (conclude (W := W) sv ex' runs output html).
Proof.
  intros sv wd ex ex' runs output html H. unfold conclude_aloud, conclude. apply nthen_hush.
  - destruct runs; [|apply quiet_hush]. apply nthen_hush; [exact H|]. intros er. apply quiet_hush.
  - intros er. destruct output as [|c o]; [apply quiet_hush|]. intros w. unfold nthen, quiet, say. destruct (on_write sv w (c :: o) (html er)) as [w1 [m|]]; [reflexivity|].
    cbn. now rewrite acts_said.
Qed.
Lemma connected_hush : forall {A} sv c (p : @noisy W A) q, hushed p q -> hushed (connected_aloud sv c p) (with_connection sv c q).
Proof.
  intros A sv c p q H w. unfold connected_aloud, with_connection. destruct (on_open sv w c) as [w1 [m|]]; [reflexivity|]. rewrite <- H.
  destruct (p w1) as [[d w2] r]. cbn. now rewrite acts_app.
Qed.
Ltac hushing := repeat first [apply quiet_hush | apply nthen_hush; [apply quiet_hush|intros ?]].
Lemma mysql_suggest_hush : forall fold so ord ordf srt query sv low parse n,
    hushed (mysql_suggest_aloud fold so ord ordf srt query sv low parse n) (mysql_suggest_with sv fold so ord ordf srt query low parse n).
Proof.
  intros. unfold mysql_suggest_aloud, mysql_suggest_with. hushing. destruct x as [|root rest]; hushing. apply say_hush. hushing.
Qed.
Theorem mysql_hush : forall tord rsrt fold so ord ordf srt unix rnds wd runs texts query output sv low parse env,
    hushed (mysql_aloud tord rsrt fold so ord ordf srt unix rnds wd runs texts query output sv low parse env)
           (mysql_main sv fold so ord ordf srt unix rnds runs texts query output low parse env).
Proof.
  intros. unfold mysql_aloud, mysql_main. hushing. apply connected_hush. unfold mysql_cmd_aloud, mysql_suggest_cmd. hushing.
  apply nthen_hush; [apply mysql_suggest_hush|]. intros its. apply say_hush. apply conclude_hush. apply examine_aloud_hush.
Qed.
Lemma pg_suggest_hush : forall fold so ord ordf srt query sv norm parse n,
    hushed (pg_suggest_aloud fold so ord ordf srt query sv norm parse n) (pg_suggest_with sv fold so ord ordf srt query norm parse n).
Proof.
  intros. unfold pg_suggest_aloud, pg_suggest_with. hushing. destruct x as [|root [|? ?]]; hushing. apply say_hush. hushing.
Qed.
Theorem pg_hush : forall tord rsrt fold so ord ordf srt unix rnds wd runs texts query output sv norm parse env,
    hushed (pg_aloud tord rsrt fold so ord ordf srt unix rnds wd runs texts query output sv norm parse env)
           (pg_main sv fold so ord ordf srt unix rnds runs texts query output norm parse env).
Proof.
  intros. unfold pg_aloud, pg_main. hushing. apply connected_hush. unfold pg_cmd_aloud, pg_suggest_cmd. hushing.
  apply nthen_hush; [apply pg_suggest_hush|]. intros its. apply say_hush. apply conclude_hush. apply examine_aloud_hush.
Qed.
Lemma hasura_suggest_hush : forall fold so ord ordf srt hv unmarshal kfold norm parse scan sql,
    hushed (hasura_suggest_aloud fold so ord ordf srt hv unmarshal kfold norm parse scan sql) (HasuraProgram.suggest_for hv unmarshal kfold fold so ord ordf srt norm parse scan sql).
Proof.
  intros. unfold hasura_suggest_aloud, HasuraProgram.suggest_for. hushing. destruct x as [|root [|? ?]]; hushing. apply say_hush. hushing.
Qed.
Theorem hasura_hush : forall tord rsrt fold so ord ordf srt unix rnds wd runs texts query output hv unmarshal kfold norm parse scan variables float parse_url env,
    hushed (hasura_aloud tord rsrt fold so ord ordf srt unix rnds wd runs texts query output hv unmarshal kfold norm parse scan variables float parse_url env)
           (HasuraProgram.hasura_main hv unmarshal kfold fold so ord ordf srt unix rnds norm parse scan float parse_url env runs texts query variables output).
Proof.
  intros. unfold hasura_aloud, HasuraProgram.hasura_main. hushing. unfold hasura_cmd_aloud, HasuraProgram.hasura_suggest_cmd. hushing.
  destruct x1 as [|[r|] [|? ?]]; hushing. apply nthen_hush; [apply hasura_suggest_hush|]. intros its. apply say_hush. hushing. apply conclude_hush. apply examine_aloud_hush.
Qed.
End Run.
