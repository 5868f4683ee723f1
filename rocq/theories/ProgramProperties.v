(** C100: what follows from the shape of a conversation. *)
From Coq Require Import String List NArith ZArith Bool Lia Arith.
From Verif Require Import Base IndexText IndexTextSpec Examiner SqlServer MetaSql HandOver Program ProgramSpec.
Import ListNotations.
Local Open Scope list_scope.
Local Open Scope nat_scope.

Definition is_exec (a : act) : bool := match a with AExec _ => true | _ => false end.
Definition is_select (a : act) : bool := match a with ASelect _ => true | _ => false end.
Definition is_write (a : act) : bool := match a with AWrite _ _ => true | _ => false end.

Section Follows.
Context (create drop : gostring -> index_target -> gostring) (explain query schema output : gostring)
  (runs : bool) (vars : outcome (list index_target)) (table : gostring -> Prop) (wrote : build_option -> option gostring -> Prop).
Let talk := conversation create drop explain query schema output runs vars table wrote.

Lemma tried_execs : forall its acts, all_tried (fun n it => AExec (create n it)) (fun n it => AExec (drop n it)) (AExec query) its acts -> forall a, In a acts ->
    exists s, a = AExec s /\ (s = query \/ exists n it, In it its /\ (s = create n it \/ s = drop n it)).
Proof.
  induction 1 as [|n it its acts H IH]; intros a Ha; [destruct Ha|].
  apply in_app_or in Ha. destruct Ha as [[<-|[<-|[<-|[]]]]|Ha].
  - eexists. split; [reflexivity|]. right. exists n, it. split; [now left|now left].
  - eexists. split; [reflexivity|]. now left.
  - eexists. split; [reflexivity|]. right. exists n, it. split; [now left|now right].
  - destruct (IH a Ha) as (s & -> & HS). exists s. split; [reflexivity|]. destruct HS as [HS|(n' & it' & HI & HS)]; [now left|].
    right. exists n', it'. split; [now right|exact HS].
Qed.
Lemma broken_execs : forall its acts, broken_off (fun n it => AExec (create n it)) (fun n it => AExec (drop n it)) (AExec query) its acts -> forall a, In a acts ->
    exists s, a = AExec s /\ (s = query \/ exists n it, In it its /\ (s = create n it \/ s = drop n it)).
Proof.
  induction 1 as [n it its|n it its|n it its acts H IH]; intros a Ha.
  - destruct Ha as [<-|[]]. eexists. split; [reflexivity|]. right. exists n, it. split; [now left|now left].
  - destruct Ha as [<-|[<-|[<-|[]]]]; (eexists; split; [reflexivity|]).
    + right. exists n, it. split; [now left|now left].
    + now left.
    + right. exists n, it. split; [now left|now right].
  - apply in_app_or in Ha. destruct Ha as [[<-|[<-|[<-|[]]]]|Ha].
    + eexists. split; [reflexivity|]. right. exists n, it. split; [now left|now left].
    + eexists. split; [reflexivity|]. now left.
    + eexists. split; [reflexivity|]. right. exists n, it. split; [now left|now right].
    + destruct (IH a Ha) as (s & -> & HS). exists s. split; [reflexivity|]. destruct HS as [HS|(n' & it' & HI & HS)]; [now left|].
      right. exists n', it'. split; [now right|exact HS].
Qed.
(** What follows the three questions *)
Lemma talk_tail : forall tr r, talk tr r ->
    length tr <= 3 /\ Forall (fun a => is_select a = true) tr \/
    exists s1 s2 s3 exam report, tr = ASelect s1 :: ASelect s2 :: ASelect s3 :: exam ++ report /\
      (forall a, In a exam -> runs = true /\ exists v targets s, vars = Ok v /\ targets_of table v targets /\ a = AExec s /\
         (s = query \/ exists n it, In it targets /\ (s = create n it \/ s = drop n it))) /\
      (report = [] \/ output <> [] /\ exists b, report = [AWrite output b]).
Proof.
  intros tr r H. destruct H as [r HV HR|v r HV HR|v rq r HV HA HR|v rq rq' r HV HA HA' HR|v rq rq' targets exam r HV HA HA' HX HT HE HR|v rq rq' exam report r HV HA HA' HE HR].
  - left. split; [cbn; lia|constructor].
  - left. split; [cbn; lia|repeat constructor].
  - left. split; [cbn; lia|repeat constructor].
  - left. split; [cbn; lia|repeat constructor].
  - right. do 3 eexists. exists exam, []. split; [rewrite app_nil_r; reflexivity|]. split; [|now left].
    intros a Ha. split; [exact HX|]. exists v, targets. destruct HE as [->|(rest & -> & HB)].
    + destruct Ha as [<-|[]]. exists query. auto.
    + destruct Ha as [<-|Ha]; [exists query; auto|]. destruct (broken_execs _ _ HB a Ha) as (s & -> & HS). exists s. auto.
  - right. do 3 eexists. exists exam, report. split; [reflexivity|]. split.
    + intros a Ha. destruct runs; [|subst exam; destruct Ha]. split; [reflexivity|]. destruct HE as (targets & HT & rest & -> & HB).
      exists v, targets. destruct Ha as [<-|Ha]; [exists query; auto|]. destruct (tried_execs _ _ HB a Ha) as (s & -> & HS). exists s. auto.
    + destruct HR as [(_ & -> & _)|(HO & b & e & -> & _)]; [now left|right; eauto].
Qed.

(** Statements are executed only if examinations were asked for; and only the query itself
    and the creation or removal of an index for one of the targets. *)
Theorem talk_executes : forall tr r s, talk tr r -> In (AExec s) tr ->
    runs = true /\ exists v targets, vars = Ok v /\ targets_of table v targets /\
      (s = query \/ exists n it, In it targets /\ (s = create n it \/ s = drop n it)).
Proof.
  intros tr r s H Hs. destruct (talk_tail tr r H) as [[_ HF]|(s1 & s2 & s3 & exam & report & -> & HE & HR)].
  - rewrite Forall_forall in HF. specialize (HF _ Hs). discriminate.
  - destruct Hs as [Hs|[Hs|[Hs|Hs]]]; [discriminate|discriminate|discriminate|]. apply in_app_or in Hs. destruct Hs as [Hs|Hs].
    + destruct (HE _ Hs) as (HX & v & targets & s' & HV & HT & E & HS). injection E as <-. split; [exact HX|]. exists v, targets. auto.
    + destruct HR as [->|(_ & b & ->)]; [destruct Hs|destruct Hs as [Hs|[]]; discriminate].
Qed.
Lemma filter_short : forall {A} (f : A -> bool) l, length (filter f l) <= length l.
Proof. intros A f l. induction l as [|a l IH]; cbn [filter length]; [lia|]. destruct (f a); cbn [length]; lia. Qed.
(** At most three questions. *)
Theorem talk_questions : forall tr r, talk tr r -> length (filter is_select tr) <= 3.
Proof.
  intros tr r H. destruct (talk_tail tr r H) as [[HL _]|(s1 & s2 & s3 & exam & report & -> & HE & HR)].
  - etransitivity; [apply filter_short|exact HL].
  - cbn [filter is_select length]. rewrite filter_app, app_length.
    assert (E : filter is_select exam = []).
    { assert (HN : forall a, In a exam -> is_select a = false) by (intros a Ha; destruct (HE a Ha) as (_ & v & t & s' & _ & _ & -> & _); reflexivity).
      clear - HN. induction exam as [|a l IH]; [reflexivity|]. cbn [filter]. rewrite (HN a (or_introl eq_refl)). apply IH. intros b Hb. apply HN. now right. }
    rewrite E. destruct HR as [->|(_ & b & ->)]; cbn; lia.
Qed.
(** One report at most, after everything else, at the given place. *)
Theorem talk_writes : forall tr r p b, talk tr r -> In (AWrite p b) tr ->
    p = output /\ output <> [] /\ exists before, tr = before ++ [AWrite p b] /\ filter is_write before = [].
Proof.
  intros tr r p b H Hs. destruct (talk_tail tr r H) as [[_ HF]|(s1 & s2 & s3 & exam & report & -> & HE & HR)].
  - rewrite Forall_forall in HF. specialize (HF _ Hs). discriminate.
  - destruct Hs as [Hs|[Hs|[Hs|Hs]]]; [discriminate|discriminate|discriminate|]. apply in_app_or in Hs. destruct Hs as [Hs|Hs].
    + destruct (HE _ Hs) as (_ & v & targets & s' & _ & _ & E & _). discriminate.
    + destruct HR as [->|(HO & b' & ->)]; [destruct Hs|]. destruct Hs as [Hs|[]]. injection Hs as <- <-. split; [reflexivity|]. split; [exact HO|].
      exists (ASelect s1 :: ASelect s2 :: ASelect s3 :: exam). split; [reflexivity|]. cbn [filter is_write].
      assert (HN : forall a, In a exam -> is_write a = false) by (intros a Ha; destruct (HE a Ha) as (_ & v & t & s' & _ & _ & -> & _); reflexivity).
      clear - HN. induction exam as [|a l IH]; [reflexivity|]. cbn [filter]. rewrite (HN a (or_introl eq_refl)). apply IH. intros c Hc. apply HN. now right.
Qed.
(** As soon as the targets given can be read, the first thing sent is the query behind
    EXPLAIN ANALYZE: whether the tool understands the query is not yet known. *)
Theorem talk_explains_first : forall tr r v, talk tr r -> vars = Ok v -> exists rest, tr = ASelect (explain ++ query, []) :: rest.
Proof.
  intros tr r v H HV. destruct H as [r HF HR|v' r _ _|v' rq r _ _ _|v' rq rq' r _ _ _ _|v' rq rq' targets exam r _ _ _ _ _ _ _|v' rq rq' exam report r _ _ _ _ _]; eauto.
  elim (HF v HV).
Qed.
(** A command that says it succeeded has asked all, tried every target and written the
    report. *)
Theorem talk_success : forall tr, talk tr (Ok tt) ->
    exists v rq rq' exam, vars = Ok v /\ asks table schema rq /\ asks table schema rq' /\
      (if runs then exists targets, targets_of table v targets /\ examined_all (fun n it => AExec (create n it)) (fun n it => AExec (drop n it)) (AExec query) targets exam else exam = []) /\
      match output with
      | [] => tr = ASelect (explain ++ query, []) :: ASelect rq :: ASelect rq' :: exam
      | _ => exists b, tr = ASelect (explain ++ query, []) :: ASelect rq :: ASelect rq' :: exam ++ [AWrite output b] /\ wrote b None
      end.
Proof.
  intros tr H. remember (Ok tt) as ok eqn:EO. unfold talk in H.
  destruct H as [r HV HR|v r HV HR|v rq r HV HA HR|v rq rq' r HV HA HA' HR|v rq rq' targets exam r HV HA HA' HX HT HE HR|v rq rq' exam report r HV HA HA' HE HR];
    try (elim (HR tt EO)).
  exists v, rq, rq', exam. split; [exact HV|]. split; [exact HA|]. split; [exact HA'|]. split; [exact HE|].
  destruct HR as [(-> & -> & _)|(HO & b & e & -> & HW & HR)]; [now rewrite app_nil_r|]. destruct output; [congruence|]. exists b. split; [reflexivity|].
  destruct e; [congruence|exact HW].
Qed.
End Follows.
Print Assumptions talk_executes.
Print Assumptions talk_questions.
Print Assumptions talk_writes.
Print Assumptions talk_explains_first.
Print Assumptions talk_success.
