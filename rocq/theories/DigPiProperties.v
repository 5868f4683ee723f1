(** C113, C114: the Performance Insights dig command from start to page. *)
From Coq Require Import String List NArith ZArith QArith Bool Lia Arith Permutation FinFun.
From Verif Require Import Base Json JsonSpec Pi PiSpec PiProofs PiFetchProofs HandOver HandOverSpec ProgramSpec DigProgram DigPage DigProgramSpec DigJaegerProperties.
From Verif Require HandOverProperties PiProperties.
Import ListNotations.
Local Open Scope string_scope.
Local Open Scope list_scope.
Local Open Scope nat_scope.

Section Insights.
Context {W : Type} (sv : services W) (vadd : Q -> Q -> Q) (vlt : Q -> Q -> bool) (vzero : Q -> bool)
  (parse_time : gostring -> outcome gtime) (now : gtime) (start_text output : gostring).

Ltac chain := repeat first [apply chained_then; [|intros ?] | apply chained_perform | apply chained_give | assumption].
Lemma half_day_chained : forall db start g a b, chained sv (half_day_loads sv vzero db start g a b).
Proof. intros. unfold half_day_loads. chain. Qed.
Lemma db_loads_chained : forall k db c, chained sv (db_loads sv vzero k db c).
Proof. induction k as [|k IH]; intros; cbn [db_loads]; [apply chained_give|].
  apply chained_then; [apply half_day_chained|intros ?]. apply chained_then; [apply half_day_chained|intros ?]. apply chained_then; [apply IH|intros ?]. apply chained_give.
Qed.
Lemma all_loads_chained : forall dbs start, chained sv (all_loads sv vzero dbs start).
Proof. induction dbs as [|d dbs IH]; intros; cbn [all_loads]; [apply chained_give|].
  apply chained_then; [apply db_loads_chained|intros ?]. apply chained_then; [apply IH|intros ?]. apply chained_give.
Qed.
Lemma pi_chained : chained sv (pi_main sv vadd vlt vzero parse_time now start_text output).
Proof.
  unfold pi_main. apply chained_then; [apply chained_perform|intros ?]. apply chained_then; [apply chained_give|intros ?].
  apply chained_then; [apply chained_give|intros ?]. apply chained_then; [apply all_loads_chained|intros ?].
  destruct (convert_loads vadd vlt 171 _ _ (fst _)); [|chain]. destruct (convert_loads vadd vlt 171 _ _ (snd _)); chain.
Qed.

(** ** Questions until the first answer that cannot be read *)
Definition broken {A} (a : outcome (list (@metric Q))) : outcome A :=
  match a with Err m => Err (lit "failed to call GetResourceMetrics of PerformanceInsights: " ++ m) | _ => Panic end.
Inductive ran {A} (plan : list Pi.request) (l : loads_answers) (r : outcome A) : Prop :=
| ran_all : map fst l = plan -> Forall (fun p => keyed (snd p)) l -> (exists x, r = Ok x) -> ran plan l r
| ran_broke : forall l0 rq a rest, l = l0 ++ [(rq, a)] -> plan = map fst l ++ rest -> Forall (fun p => keyed (snd p)) l0 ->
    ~ keyed a -> r = broken a -> ran plan l r.
Definition matches (cli : @pi_client Q) (n : nat) (l : loads_answers) : Prop :=
  forall i rq a, nth_error l i = Some (rq, a) -> cli (n + i) rq = a.
Definition runs {A} (p : @dprog W A) (plan : list Pi.request) (g : @pi_client Q -> nat -> outcome A) : Prop :=
  forall w tr w' r, p w = (tr, w', r) -> exists l, tr = fetches l /\ ran plan l r /\ forall cli n, matches cli n l -> g cli n = r.

Lemma runs_give : forall A (x : A), runs (dgive (Ok x)) [] (fun _ _ => Ok x).
Proof.
  intros A x w tr w' r H. injection H as <- _ <-. exists []. split; [reflexivity|]. split; [|reflexivity].
  apply ran_all; [reflexivity|constructor|now exists x].
Qed.
Lemma matches_app : forall cli n a b, matches cli n (a ++ b) -> matches cli n a /\ matches cli (n + length a) b.
Proof.
  intros cli n a b H. split.
  - intros i rq x E. apply H. rewrite nth_error_app1; [exact E|]. apply nth_error_Some. congruence.
  - intros i rq x E. rewrite <- Nat.add_assoc. apply H. rewrite nth_error_app2 by lia. replace (length a + i - length a) with i by lia. exact E.
Qed.
Lemma runs_then : forall A B (p : dprog A) (f : A -> dprog B) p1 p2 g1 g2,
    runs p p1 g1 -> (forall x, runs (f x) p2 (g2 x)) ->
    runs (dthen p f) (p1 ++ p2) (fun cli n => do x <- g1 cli n; g2 x cli (n + length p1)).
Proof.
  intros A B p f p1 p2 g1 g2 HP HF w tr w' r H. unfold dthen in H. destruct (p w) as [[tr1 w1] r1] eqn:E1.
  destruct (HP _ _ _ _ E1) as (l1 & T1 & R1 & S1). destruct R1 as [M1 K1 [x X1]|l0 rq a rest L1 M1 K1 N1 X1].
  - subst r1. destruct (f x w1) as [[tr2 w2] r2] eqn:E2. injection H as <- _ <-. destruct (HF x _ _ _ _ E2) as (l2 & T2 & R2 & S2).
    exists (l1 ++ l2). split; [subst; unfold fetches; now rewrite map_app|]. split.
    + destruct R2 as [M2 K2 X2|l0 rq a rest L2 M2 K2 N2 X2].
      * apply ran_all; [rewrite map_app; congruence|apply Forall_app; now split|exact X2].
      * apply (ran_broke _ _ _ (l1 ++ l0) rq a rest); [rewrite L2; apply app_assoc|rewrite map_app, <- app_assoc; congruence|apply Forall_app; now split|exact N2|exact X2].
    + intros cli n HM. apply matches_app in HM. destruct HM as [HM1 HM2]. rewrite (S1 cli n HM1). cbn [obind]. apply S2.
      rewrite <- M1, map_length. exact HM2.
  - assert (E : r = broken a /\ tr = tr1) by (subst r1; destruct a; cbn [broken] in H; injection H as <- _ <-; split; reflexivity).
    destruct E as [-> ->]. exists l1. split; [exact T1|]. split.
    + apply (ran_broke _ _ _ l0 rq a (rest ++ p2)); [exact L1|rewrite M1 at 1; now rewrite app_assoc|exact K1|exact N1|reflexivity].
    + intros cli n HM. rewrite (S1 cli n HM), X1. destruct a; reflexivity.
Qed.
Lemma runs_ext : forall A (p : dprog A) plan plan' g g', runs p plan g -> plan = plan' -> (forall cli n, g cli n = g' cli n) -> runs p plan' g'.
Proof. intros A p plan plan' g g' H <- E w tr w' r E1. destruct (H _ _ _ _ E1) as (l & T & R & S). exists l. split; [exact T|]. split; [exact R|]. intros cli n HM. rewrite <- E. now apply S. Qed.
Lemma runs_half_day : forall db start group sk tk,
    runs (half_day_loads sv vzero db start group sk tk) [half_day_request db start group]
      (fun cli n => do out <- get_half_day cli n db start group; convert_metrics vzero db out sk tk).
Proof.
  intros db start group sk tk w tr w' r H. unfold half_day_loads, dthen, perform, dgive in H.
  destruct (sv w (GMetrics (half_day_request db start group))) as [w1 a] eqn:E. cbn [reply] in a.
  exists [(half_day_request db start group, a)].
  assert (HT : tr = fetches [(half_day_request db start group, a)] /\ r = do out <- (match a with Err m => Err (lit "failed to call GetResourceMetrics of PerformanceInsights: " ++ m) | o => o end); convert_metrics vzero db out sk tk).
  { injection H as <- _ <-. split; reflexivity. }
  clear H. destruct HT as [-> ->]. split; [reflexivity|]. split.
  - destruct a as [out|m|].
    + destruct (no_missing_dec out) as [K|(m & K1 & K2)].
      * destruct (convert_total vzero db out sk tk K) as (x & kept & Ex & _). apply ran_all; [reflexivity| |exists x; exact Ex].
        constructor; [|constructor]. exists out. now split.
      * apply (ran_broke _ _ _ [] (half_day_request db start group) (Ok out) []); [reflexivity|reflexivity|constructor| |].
        { intros (o & Eo & Ho). injection Eo as <-. exact (Ho m K1 K2). }
        cbn [obind]. rewrite (convert_panics vzero db out sk tk m K1 K2). reflexivity.
    + apply (ran_broke _ _ _ [] (half_day_request db start group) (Err m) []); [reflexivity|reflexivity|constructor|intros (o & Eo & _); discriminate|reflexivity].
    + apply (ran_broke _ _ _ [] (half_day_request db start group) Panic []); [reflexivity|reflexivity|constructor|intros (o & Eo & _); discriminate|reflexivity].
  - intros cli n HM. unfold get_half_day. specialize (HM 0 _ _ eq_refl). rewrite Nat.add_0_r in HM. rewrite HM. destruct a; reflexivity.
Qed.
(** The questions for a database and for all *)
Fixpoint plan_db (k : nat) (db : rds_db) (c : gtime) : list Pi.request :=
  match k with
  | 0 => []
  | S k' => half_day_request db c (lit "db.sql") :: half_day_request db c (lit "db.sql_tokenized") :: plan_db k' db (tadd c (12 * hour))
  end.
Lemma runs_db : forall k db c, runs (db_loads sv vzero k db c) (plan_db k db c) (fun cli n => dig_windows vzero k cli n db c).
Proof.
  induction k as [|k IH]; intros db c; cbn [db_loads plan_db]; [apply runs_give|].
  eapply runs_ext; [eapply runs_then; [apply runs_half_day|intros avgs; eapply runs_then; [apply runs_half_day|intros tavgs; eapply runs_then; [apply IH|intros r; apply runs_give]]]| |].
  - cbn [app]. now rewrite app_nil_r.
  - intros cli n. cbn [dig_windows length]. unfold get_half_day_sql, get_half_day_tok. rewrite !Nat.add_1_r.
    destruct (do out <- get_half_day cli n db c (lit "db.sql"); _); [|reflexivity|reflexivity]. cbn [obind].
    destruct (do out <- get_half_day cli (S n) db c (lit "db.sql_tokenized"); _); reflexivity.
Qed.
Definition plan_all (dbs : list rds_db) (start : gtime) : list Pi.request := flat_map (fun db => plan_db 14 db start) dbs.
Lemma plan_db_length : forall k db c, length (plan_db k db c) = 2 * k.
Proof. induction k as [|k IH]; intros; cbn [plan_db length]; [reflexivity|]. rewrite IH. lia. Qed.
Lemma runs_all : forall dbs start, runs (all_loads sv vzero dbs start) (plan_all dbs start) (fun cli n => dig_dbs vzero cli n dbs start).
Proof.
  induction dbs as [|db dbs IH]; intros start; cbn [all_loads]; [apply runs_give|].
  eapply runs_ext; [eapply runs_then; [apply runs_db|intros a; eapply runs_then; [apply IH|intros r; apply runs_give]]| |].
  - unfold plan_all. cbn [flat_map]. now rewrite app_nil_r.
  - intros cli n. cbn [dig_dbs]. rewrite plan_db_length. reflexivity.
Qed.
Lemma plan_db_nth : forall k db c n rq, nth_error (plan_db k db c) n = Some rq ->
    exists i g, i < k /\ (n = 2 * i /\ g = lit "db.sql" \/ n = 2 * i + 1 /\ g = lit "db.sql_tokenized") /\ PiSpec.asks db c g i rq.
Proof.
  induction k as [|k IH]; intros db c n rq H; cbn [plan_db] in H; [destruct n; discriminate|].
  destruct n as [|[|n]]; cbn [nth_error] in H.
  - injection H as <-. exists 0, (lit "db.sql"). split; [lia|]. split; [left; split; reflexivity|].
    unfold PiSpec.asks, half_day, half_day_request, tadd, hour. cbn [rq_identifier rq_metric rq_group rq_limit rq_period rq_start rq_end].
    repeat (split; [reflexivity|]). destruct c as [ns loc]. cbn [t_ns t_loc]. f_equal; f_equal; lia.
  - injection H as <-. exists 0, (lit "db.sql_tokenized"). split; [lia|]. split; [right; split; reflexivity|].
    unfold PiSpec.asks, half_day, half_day_request, tadd, hour. cbn [rq_identifier rq_metric rq_group rq_limit rq_period rq_start rq_end].
    repeat (split; [reflexivity|]). destruct c as [ns loc]. cbn [t_ns t_loc]. f_equal; f_equal; lia.
  - destruct (IH _ _ _ _ H) as (i & g & Hi & Hn & (A1 & A2 & A3 & A4 & A5 & A6)). exists (S i), g. split; [lia|]. split.
    + destruct Hn as [[-> ->]|[-> ->]]; [left|right]; split; try reflexivity; lia.
    + repeat (split; [assumption|]). rewrite A6. unfold half_day, tadd, hour. cbn [t_ns t_loc]. f_equal; f_equal; lia.
Qed.
Lemma plan_all_nth : forall dbs start n rq, nth_error (plan_all dbs start) n = Some rq ->
    exists d db i g, nth_error dbs d = Some db /\ i < 14 /\
      (n = 28 * d + 2 * i /\ g = lit "db.sql" \/ n = 28 * d + 2 * i + 1 /\ g = lit "db.sql_tokenized") /\ PiSpec.asks db start g i rq.
Proof.
  induction dbs as [|db dbs IH]; intros start n rq H; unfold plan_all in H; cbn [flat_map] in H; [destruct n; discriminate|].
  destruct (Nat.lt_ge_cases n 28) as [L|L].
  - rewrite nth_error_app1 in H by (rewrite plan_db_length; lia). destruct (plan_db_nth _ _ _ _ _ H) as (i & g & Hi & Hn & HA).
    exists 0, db, i, g. split; [reflexivity|]. split; [exact Hi|]. split; [|exact HA]. destruct Hn as [[-> ->]|[-> ->]]; [left|right]; split; try reflexivity; lia.
  - rewrite nth_error_app2, plan_db_length in H by (rewrite plan_db_length; lia). destruct (IH start _ _ H) as (d & db' & i & g & H1 & H2 & H3 & H4).
    exists (S d), db', i, g. split; [exact H1|]. split; [exact H2|]. split; [|exact H4]. destruct H3 as [[E ->]|[E ->]]; [left|right]; split; try reflexivity; lia.
Qed.
Lemma plan_asked : forall dbs start l rest, plan_all dbs start = map fst l ++ rest -> loads_asked dbs start l.
Proof.
  intros dbs start l rest H n rq a E. apply plan_all_nth. rewrite H, nth_error_app1.
  - rewrite nth_error_map, E. reflexivity.
  - rewrite map_length. apply nth_error_Some. congruence.
Qed.
Lemma listed_iff : forall is, match rds_dbs is with Ok dbs => listed is dbs | Err _ => False | Panic => forall dbs, ~ listed is dbs end.
Proof.
  induction is as [|[[nm|] [rn|]] is IH]; cbn [rds_dbs].
  - constructor.
  - destruct (rds_dbs is) as [dbs|m|]; cbn [obind]; [constructor; [reflexivity|exact IH]|exact IH|].
    intros dbs H. inversion H; subst. eapply IH; eassumption.
  - intros dbs H. inversion H as [|? ? ? ? E]; subst. discriminate.
  - intros dbs H. inversion H as [|? ? ? ? E]; subst. discriminate.
  - intros dbs H. inversion H as [|? ? ? ? E]; subst. discriminate.
Qed.

(** ** C113 *)
Theorem pi_talks : weak_order vlt -> forall w tr w' r, pi_main sv vadd vlt vzero parse_time now start_text output w = (tr, w', r) ->
    answered_by sv w tr w' /\ pi_talk vadd vlt vzero parse_time now start_text output tr r.
Proof.
  intros WO w tr w' r H. split; [eapply pi_chained; eauto|]. unfold pi_main in H. unfold dthen at 1, perform at 1 in H.
  destruct (sv w (GDescribe [lit "mysql"])) as [w1 a] eqn:E1. cbn [reply] in a. clear E1.
  unfold dthen at 1, dgive at 1 in H.
  destruct a as [is|m|].
  2:{ injection H as <- _ <-. apply pt_unlisted; [discriminate|reflexivity]. }
  2:{ injection H as <- _ <-. apply pt_unlisted; [discriminate|reflexivity]. }
  pose proof (listed_iff is) as HL. destruct (rds_dbs is) as [dbs|m|]; [|destruct HL|].
  2:{ injection H as <- _ <-. apply pt_unlisted; [|reflexivity]. intros is' dbs E. injection E as <-. apply HL. }
  unfold dthen at 1, dgive at 1 in H.
  assert (HS : forall start, start_text = [] /\ start = tadd now (- week) \/ start_text <> [] /\ parse_time start_text = Ok start -> week_from parse_time now start_text start).
  { intros start [[K1 K2]|K]; [left|right; exact K]. split; [exact K1|]. rewrite K2. unfold tadd, week, hour. f_equal. }
  assert (HG : forall start, week_from parse_time now start_text start -> forall tr0 w0 r0,
    (let '(tr', w2, r') := dthen (all_loads sv vzero dbs start) (fun r =>
      match convert_loads vadd vlt 171 start (tadd start week) (fst r), convert_loads vadd vlt 171 start (tadd start week) (snd r) with
      | Some rows, Some trows => dthen (perform sv (GCreate output (BoPi (Some rows) (Some trows)))) (fun e => dgive (failed_with e))
      | _, _ => dgive Panic
      end) w1 in (tr', w2, r')) = (tr0, w0, r0) -> pi_talk vadd vlt vzero parse_time now start_text output (said (GDescribe [lit "mysql"]) (Ok is) :: tr0) r0).
  { clear H. intros start HW tr0 w0 r0 H. unfold dthen at 1 in H. destruct (all_loads sv vzero dbs start w1) as [[tr1 w2] r1] eqn:E1.
    destruct (runs_all dbs start _ _ _ _ E1) as (l & -> & R & S). destruct R as [M K [[avgs tavgs] ->]|l0 rq a rest EL M K N ->].
    - cbn [fst snd] in H.
      assert (Hl : forall avgs, exists rows, convert_loads vadd vlt 171 start (tadd start week) avgs = Some rows /\
              hourly vadd vlt start {| t_ns := t_ns start + 604800000000000; t_loc := t_loc start |} avgs rows /\ length rows = 169).
      { intros av. destruct (convert_hourly vadd vlt 171 start (tadd start week) av WO) as (rows & E & HH).
        { unfold tadd, week, hour. cbn [t_ns]. lia. }
        exists rows. split; [exact E|]. split; [exact HH|]. destruct HH as (ss & h0 & _ & [[B1 B2] _] & L & _).
        unfold tadd, week, hour in L. cbn [t_ns] in L. pose proof (L 168) as L1. pose proof (L 169) as L2. lia. }
      destruct (Hl avgs) as (rows & Q1 & H1 & L1). destruct (Hl tavgs) as (trows & Q2 & H2 & L2). rewrite Q1, Q2 in H.
      unfold dthen, perform, dgive in H. destruct (sv w2 (GCreate output (BoPi (Some rows) (Some trows)))) as [w3 e]. cbn [reply] in e.
      injection H as <- _ <-. cbn [app].
      apply (pt_done _ _ _ _ _ _ _ is dbs start l (BoPi (Some rows) (Some trows)) e); [exact HL|exact HW| | |exact K| |destruct e; reflexivity].
      + apply (plan_asked dbs start l []). rewrite app_nil_r. now symmetry.
      + rewrite <- (map_length fst), M. unfold plan_all. clear. induction dbs as [|d ds IH]; [reflexivity|]. cbn [flat_map length]. rewrite app_length, plan_db_length, IH. lia.
      + exists avgs, tavgs, rows, trows. split; [|repeat (split; [assumption|]); reflexivity].
        intros cli HC. apply PiProperties.week_is_fetched. apply S. intros i rq a Ei. exact (HC i rq a Ei).
    - assert (HX : tr0 = fetches l /\ r0 = broken a) by (destruct a; cbn [broken] in H; injection H as <- _ <-; split; reflexivity).
      destruct HX as [-> ->]. rewrite EL. apply (pt_broken _ _ _ _ _ _ _ is dbs start l0 rq a); [exact HL|exact HW| |exact K|exact N|reflexivity].
      rewrite <- EL. exact (plan_asked dbs start l rest M). }
  destruct start_text as [|c st] eqn:ES.
  - specialize (HG (tadd now (- week)) (HS _ (or_introl (conj eq_refl eq_refl)))).
    match type of H with context [dthen (all_loads sv vzero dbs (tadd now (- week))) ?f w1] => destruct (dthen (all_loads sv vzero dbs (tadd now (- week))) f w1) as [[tr2 w2] r2] eqn:E2 end.
      cbv beta iota in H. injection H as <- <- <-. cbn [app]. exact (HG _ _ _ eq_refl).
  - assert (NE : c :: st <> []) by (intros K; inversion K).
    destruct (parse_time (c :: st)) as [start|m|] eqn:EP.
    + specialize (HG start (HS start (or_intror (conj NE eq_refl)))).
      match type of H with context [dthen (all_loads sv vzero dbs start) ?f w1] => destruct (dthen (all_loads sv vzero dbs start) f w1) as [[tr2 w2] r2] eqn:E2 end.
      cbv beta iota in H. injection H as <- <- <-. cbn [app]. exact (HG _ _ _ eq_refl).
    + injection H as <- _ <-. apply (pt_bad_start _ _ _ _ _ _ _ is dbs); [exact HL|exact NE|rewrite EP; intros x K; inversion K|intros x K; inversion K].
    + injection H as <- _ <-. apply (pt_bad_start _ _ _ _ _ _ _ is dbs); [exact HL|exact NE|rewrite EP; intros x K; inversion K|intros x K; inversion K].
Qed.
End Insights.

(** ** C114 *)
(** The file is written whenever the command ends well, whatever its name. *)
Theorem pi_success_writes : forall vadd vlt vzero parse_time now start_text output tr,
    pi_talk vadd vlt vzero parse_time now start_text output tr (Ok tt) ->
    exists is dbs start l b, listed is dbs /\ week_from parse_time now start_text start /\ length l = 28 * length dbs /\
      pi_report vadd vlt vzero dbs start l b /\
      tr = said (GDescribe [lit "mysql"]) (Ok is) :: fetches l ++ [said (GCreate output b) None].
Proof.
  intros vadd vlt vzero parse_time now start_text output tr H. inversion H as [a r H1 H2|is dbs r H1 H2 H3 H4|is dbs start l rq a r H1 H2 H3 H4 H5 H6|is dbs start l b m r H1 H2 H3 H4 H5 H6 H7]; subst.
  - destruct a; discriminate.
  - now elim (H4 tt).
  - destruct a; discriminate.
  - destruct m; [discriminate|]. exists is, dbs, start, l, b. split; [exact H1|]. split; [exact H2|]. split; [exact H4|]. split; [exact H6|reflexivity].
Qed.

Lemma exactly_or : forall A (P : A -> Prop) l m x, OtelSpec.sublist_where P l m -> In x l -> In x m /\ P x \/ ~ P x.
Proof.
  intros A P l m x H. induction H as [|y l m Hy H IH|y l m Hy H IH]; intros HI; [destruct HI| |]; destruct HI as [->|HI].
  - left. split; [now left|exact Hy].
  - destruct (IH HI) as [[K1 K2]|K]; [left; split; [now right|exact K2]|now right].
  - now right.
  - exact (IH HI).
Qed.
Lemma grouped_has : forall X E K (kx : X -> K) (key : E -> K) content xs es x, grouped kx key content xs es -> In x xs ->
    exists e g, In e es /\ key e = kx x /\ content g e /\ In x g.
Proof.
  intros X E K kx key content xs es x H. induction H as [|x0 xs same others e es H1 H2 HK HC H IH]; intros HI; [destruct HI|].
  destruct HI as [->|HI]; [exists e, (x :: same); split; [now left|]; split; [exact HK|]; split; [exact HC|now left]|].
  destruct (exactly_or _ _ _ _ x H1 HI) as [[K1 K2]|K1].
  - exists e, (x0 :: same). split; [now left|]. split; [now rewrite HK|]. split; [exact HC|now right].
  - destruct (exactly_or _ _ _ _ x H2 HI) as [[K2 _]|K2]; [|now elim K2]. destruct (IH K2) as (e' & g & G1 & G2). exists e', g. split; [now right|exact G2].
Qed.
Lemma load_rows_show : forall vadd vlt start avgs rows a v t, (3600000000000 | offset_of (t_loc start))%Z ->
    hourly vadd vlt start {| t_ns := t_ns start + 604800000000000; t_loc := t_loc start |} avgs rows -> length rows = 169 ->
    In a avgs -> In (v, t) (la_values a) -> t_loc t = UTC -> (t_ns start <= t_ns t < t_ns start + 604800000000000)%Z ->
    load_shown vlt rows (la_db a) (la_sql a) t v.
Proof.
  intros vadd vlt start avgs rows a v t HO HH HR Ha Hv HU HT.
  set (s := {| s_time := t; s_db := la_db a; s_sql := la_sql a; s_tok := la_tok a; s_value := v |}).
  destruct (HH) as (ss & h0 & SS & C1 & _ & _).
  assert (Hs : In s ss).
  { apply samples_of_in in SS. subst ss. unfold samples_of. apply in_flat_map. exists a. split; [exact Ha|]. apply in_map_iff. exists (v, t). split; [reflexivity|exact Hv]. }
  pose proof (proj1 (clock_hour_shift _ _ _ HO) C1) as C2.
  destruct (PiProperties.sample_counted_once _ vadd vlt start _ avgs rows HH HO ss s h0 SS Hs HU C2) as (k & row & g & K1 & K2 & K3 & K4 & K5 & _).
  { rewrite HR. cbn [s_time s]. destruct C1 as [C1 _]. lia. }
  apply nth_error_In in K1. destruct (grouped_has _ _ _ _ _ _ _ _ s K5 K4) as (d & gd & D1 & D2 & D3 & D4).
  destruct (grouped_has _ _ _ _ _ _ _ _ s D3 D4) as (q & gq & Q1 & Q2 & Q3 & Q4).
  exists row, d, q. split; [exact K1|]. destruct K2 as [_ [K2 _]]. split; [exact K2|]. split; [exact D1|]. split; [exact D2|]. split; [exact Q1|]. split; [exact Q2|].
  destruct Q3 as (first & others & _ & _ & _ & _ & Q3). exact (Q3 s Q4).
Qed.
Lemma answer_taken : forall vzero (cli : @pi_client Q) n db start g sk tk i avgs out m dims t v,
    answered vzero cli n db start g sk tk i avgs -> (forall rq a, cli n rq = Ok a -> a = out) -> In m out -> sql_metric m dims ->
    In {| dp_time := Some t; dp_value := Some v |} (m_points m) -> vzero v = false ->
    exists a, In a avgs /\ la_db a = db_name db /\ dimension dims sk (la_sql a) /\ In (v, t) (la_values a).
Proof.
  intros vzero cli n db start g sk tk i avgs out m dims t v (r & out' & kept & _ & HC & _ & HX & HF) HO Hm HS HP HZ.
  apply HO in HC. subst out'. destruct (exactly_or _ _ _ _ m HX Hm) as [[Hk _]|K]; [|elim K; now exists dims].
  assert (HA : exists a, In a avgs /\ load_of vzero db sk tk m a).
  { clear HX. induction HF as [|x y xs ys Hxy HF IH]; [destruct Hk|]. destruct Hk as [->|Hk]; [exists y; split; [now left|exact Hxy]|].
    destruct (IH Hk) as (a & A1 & A2). exists a. split; [now right|exact A2]. }
  destruct HA as (a & A1 & dims' & points & M & A2 & A3 & _ & A5 & A6).
  assert (dims' = dims) by (unfold sql_metric in *; congruence). subst dims'.
  exists a. split; [exact A1|]. split; [exact A2|]. split; [exact A3|].
  destruct (exactly_or _ _ _ _ _ A5 HP) as [[K _]|K]; [|elim K; exists t, v; now split].
  clear - A6 K. induction A6 as [|p [v' t'] ps vs Hp F IH]; [destruct K|]. destruct K as [->|K]; [|right; exact (IH K)].
  left. cbn [fst snd] in Hp. injection Hp as -> ->. reflexivity.
Qed.
(** Every load answered for its half day is shown, if the start is given in a zone of
    whole hours (see [fractional_zone_loses]). *)
Theorem pi_shows_loads : forall vadd vlt vzero dbs start l b,
    loads_asked dbs start l -> length l = 28 * length dbs -> pi_report vadd vlt vzero dbs start l b ->
    (3600000000000 | offset_of (t_loc start))%Z ->
    exists rows trows, b = BoPi (Some rows) (Some trows) /\
      forall n rq out m dims t v, nth_error l n = Some (rq, Ok out) -> In m out -> sql_metric m dims ->
        In {| dp_time := Some t; dp_value := Some v |} (m_points m) -> vzero v = false -> t_loc t = UTC ->
        (t_ns (rq_start rq) <= t_ns t < t_ns (rq_end rq))%Z ->
        exists db sql, In db dbs /\ rq_identifier rq = db_resource db /\
          (rq_group rq = lit "db.sql" /\ dimension dims (lit "db.sql.statement") sql /\ load_shown vlt rows (db_name db) sql t v \/
           rq_group rq = lit "db.sql_tokenized" /\ dimension dims (lit "db.sql_tokenized.statement") sql /\ load_shown vlt trows (db_name db) sql t v).
Proof.
  intros vadd vlt vzero dbs start l b HA HN (avgs & tavgs & rows & trows & HW & H1 & H2 & L1 & L2 & EB) HO.
  exists rows, trows. split; [exact EB|]. intros n rq out m dims t v En Hm HM HP HZ HU HT.
  set (cli := fun (n : nat) (_ : Pi.request) => match nth_error l n with Some (_, a) => a | None => Panic end).
  destruct (HW cli) as (A & T & HAT & EA & ET). { intros k q a Ek. unfold cli. rewrite Ek. reflexivity. }
  destruct (HA n rq (Ok out) En) as (d & db & i & g & Hd & Hi & Hg & (Q1 & _ & Q3 & _ & _ & Q6)).
  assert (HC : forall q a, cli n q = Ok a -> a = out) by (intros q a; unfold cli; rewrite En; intros E; now injection E).
  assert (HR : (t_ns start <= t_ns t < t_ns start + 604800000000000)%Z).
  { unfold half_day in Q6. injection Q6 as R1 R2. rewrite R1, R2 in HT. cbn [t_ns] in HT. lia. }
  destruct (HAT d db i Hd Hi) as [AA AT].
  assert (HIN : forall (F : nat -> nat -> list (@load_avg Q)) a, In a (F d i) -> In a (flat_map (fun d => flat_map (F d) (seq 0 14)) (seq 0 (length dbs)))).
  { intros F a Hx. apply in_flat_map. exists d. split; [apply in_seq; split; [lia|]; cbn; apply nth_error_Some; congruence|].
    apply in_flat_map. exists i. split; [apply in_seq; lia|exact Hx]. }
  destruct Hg as [[-> ->]|[-> ->]].
  - destruct (answer_taken _ _ _ _ _ _ _ _ _ _ _ _ _ _ _ AA HC Hm HM HP HZ) as (a & A1 & A2 & A3 & A4).
    exists db, (la_sql a). split; [eapply nth_error_In; exact Hd|]. split; [exact Q1|]. left. split; [exact Q3|]. split; [exact A3|]. rewrite <- A2.
    apply (load_rows_show vadd vlt start avgs rows a v t HO H1 L1); [rewrite EA; now apply HIN|exact A4|exact HU|exact HR].
  - destruct (answer_taken _ _ _ _ _ _ _ _ _ _ _ _ _ _ _ AT HC Hm HM HP HZ) as (a & A1 & A2 & A3 & A4).
    exists db, (la_sql a). split; [eapply nth_error_In; exact Hd|]. split; [exact Q1|]. right. split; [exact Q3|]. split; [exact A3|]. rewrite <- A2.
    apply (load_rows_show vadd vlt start tavgs trows a v t HO H2 L2); [rewrite ET; now apply HIN|exact A4|exact HU|exact HR].
Qed.
(** The report opens with the rows. *)
Theorem pi_page_opens : forall num_text num_value format vadd vlt vzero dbs start l b,
    numbers (number_fine num_text num_value) (gr_map b) -> pi_report vadd vlt vzero dbs start l b ->
    exists v rows trows rows' trows', b = BoPi (Some rows) (Some trows) /\
      script_value num_value (report_script num_text (gr_map b)) = Some v /\
      open_page format (bundle_of b) v = Ok (PagePi (Some rows') (Some trows')) /\
      Forall2 row_shown rows rows' /\ Forall2 row_shown trows trows'.
Proof.
  intros num_text num_value format vadd vlt vzero dbs start l b HN (avgs & tavgs & rows & trows & _ & _ & _ & _ & _ & ->).
  destruct (HandOverProperties.report_opens_its_page num_text num_value format _ HN I) as (v & p & E1 & E2 & E3).
  destruct p as [k x|[s|] [t|]| |d'| |]; cbn [page_shows option_rel] in E3; try contradiction; try (destruct E3; contradiction).
  destruct E3 as [E3 E4]. exists v, rows, trows, s, t. split; [reflexivity|]. split; [exact E1|]. split; [exact E2|]. split; assumption.
Qed.
Lemma nodup_apart : forall A (u v : list A) x, NoDup (u ++ v) -> In x u -> In x v -> False.
Proof.
  intros A u v x. induction u as [|y u IH]; intros HN HB HS; [destruct HB|]. cbn [app] in HN. apply NoDup_cons_iff in HN. destruct HN as [N1 N2].
  destruct HB as [->|HB]; [apply N1, in_or_app; now right|exact (IH N2 HB HS)].
Qed.
(** An answer of DescribeDBInstances has at most 100 instances unless the next page is
    asked for, which never is: the databases beyond are not dug. *)
Theorem further_instances_missed : forall vadd vlt vzero parse_time now start_text output tr r store,
    pi_talk vadd vlt vzero parse_time now start_text output tr r ->
    (forall a, In (said (GDescribe [lit "mysql"]) a) tr -> a = Ok (firstn 100 store)) ->
    NoDup (map snd store) ->
    forall rq a name res, In (said (GMetrics rq) a) tr -> In (name, Some res) (skipn 100 store) -> rq_identifier rq <> res.
Proof.
  intros vadd vlt vzero parse_time now start_text output tr r store HT HD HN rq a name res HI HS EQ.
  assert (KI : forall (l : loads_answers) y, In y (fetches l) -> exists p, In p l /\ y = said (GMetrics (fst p)) (snd p)).
  { intros l y Hy. unfold fetches in Hy. apply in_map_iff in Hy. destruct Hy as (p & E & Hp). exists p. split; [exact Hp|exact (eq_sym E)]. }
  assert (K : exists is dbs start l rest, listed is dbs /\ loads_asked dbs start l /\ tr = said (GDescribe [lit "mysql"]) (Ok is) :: fetches l ++ rest /\ (forall a, ~ In (said (GMetrics rq) a) rest)).
  { destruct HT as [x r H1 H2|is dbs r H1 H2 H3 H4|is dbs start l q x r H1 H2 H3 H4 H5 H6|is dbs start l b m r H1 H2 H3 H4 H5 H6 H7].
    - destruct HI as [E|[]]. discriminate (f_equal (@projT1 _ _) E).
    - destruct HI as [E|[]]. discriminate (f_equal (@projT1 _ _) E).
    - exists is, dbs, start, (l ++ [(q, x)]), []. split; [exact H1|]. split; [exact H3|]. split; [now rewrite app_nil_r|]. intros a0 [].
    - exists is, dbs, start, l, [said (GCreate output b) m]. split; [exact H1|]. split; [exact H3|]. split; [reflexivity|]. intros a0 [E|[]]. discriminate (f_equal (@projT1 _ _) E). }
  destruct K as (is & dbs & start & l & rest & HL & HA & -> & HR).
  assert (EI : is = firstn 100 store). { specialize (HD (Ok is) (or_introl eq_refl)). now injection HD. }
  destruct HI as [E|HI]; [discriminate (f_equal (@projT1 _ _) E)|]. apply in_app_or in HI. destruct HI as [HI|HI]; [|now apply HR in HI].
  destruct (KI l _ HI) as ([q x] & Hp & E). apply (f_equal (@projT1 _ _)) in E. cbn [said projT1 fst] in E. injection E as <-.
  apply In_nth_error in Hp. destruct Hp as (n & Hn). destruct (HA n rq x Hn) as (d & db & i & g & Hd & _ & _ & (Q1 & _)).
  apply nth_error_In in Hd. assert (HB : In (Some (db_resource db)) (map snd is)).
  { clear - HL Hd. induction HL as [|y z ys zs Hyz HL IH]; [destruct Hd|]. destruct Hd as [->|Hd]; [left; now rewrite Hyz|right; exact (IH Hd)]. }
  subst is. rewrite <- Q1, EQ in HB. rewrite <- (firstn_skipn 100 store), map_app in HN. clear - HN HB HS.
  apply (in_map snd) in HS. cbn [snd] in HS. exact (nodup_apart _ _ _ _ HN HB HS).
Qed.
(** ** Examples *)
Definition qlt (a b : Q) : bool := negb (Qle_bool b a).
Definition ex_at (ns : Z) : gtime := {| t_ns := ns; t_loc := UTC |}.
(** A service with the instances given, each with one load per question, and a file
    system that refuses the empty name *)
Definition ex_aws (store : list instance) : services nat := fun w a =>
  match a return nat * reply a with
  | GDial _ => (w, None)
  | GFind _ => (w, Panic)
  | GDescribe _ => (w, Ok (firstn 100 store))
  | GMetrics rq => (S w, Ok [ {| m_key := Some {| mk_metric := Some (lit "db.load.avg"); mk_dims := Some [(rq_group rq ++ lit ".statement", lit "SELECT 1")] |};
                                  m_points := [ {| dp_time := Some (ex_at (t_ns (rq_start rq) + 1)); dp_value := Some 2%Q |} ] |} ])
  | GCreate [] _ => (w, Some (lit "open : no such file or directory"))
  | GCreate _ _ => (w, None)
  | GHangUp => (w, None)
  end.
Definition ex_dbs : list instance := [(Some (lit "a"), Some (lit "db-a")); (Some (lit "b"), Some (lit "db-b"))].
Definition ex_start (t : gostring) : outcome gtime := if seqb t (lit "1970-01-01T00:30:00Z") then Ok (ex_at 1800000000000) else Err (lit "bad").
Definition ex_dig (store : list instance) (start_text output : gostring) : list exchange * nat * outcome unit :=
  pi_main (ex_aws store) Qplus qlt (Qeq_bool 0) ex_start (ex_at 604800000000000) start_text output 0.
Example ex_order : weak_order qlt.
Proof.
  unfold weak_order, qlt. split.
  - intros a b H. apply negb_true_iff in H. apply negb_false_iff. apply Qle_bool_iff.
    destruct (Qlt_le_dec a b) as [K|K]; [now apply Qlt_le_weak|]. apply Qle_bool_iff in K. congruence.
  - intros a b c H1 H2. apply negb_false_iff in H1, H2. apply negb_false_iff. apply Qle_bool_iff in H1, H2. apply Qle_bool_iff. eapply Qle_trans; eauto.
Qed.
Definition kind (x : exchange) : nat := match projT1 x with GDescribe _ => 0 | GMetrics _ => 1 | GCreate _ _ => 2 | _ => 3 end.
(** One describe, 56 questions for two databases, the report *)
Example pi_talks_ex : let '(tr, w, r) := ex_dig ex_dbs (lit "1970-01-01T00:30:00Z") (lit "o.html") in
  map kind tr = 0 :: repeat 1 56 ++ [2] /\ w = 56 /\ r = Ok tt.
Proof. vm_compute. split; [reflexivity|]. split; reflexivity. Qed.
(** A start that cannot be read is refused after asking for the databases. *)
Example bad_start_ex : let '(tr, w, r) := ex_dig ex_dbs (lit "yesterday") (lit "o.html") in map kind tr = [0] /\ r = Err (lit "Invalid format: bad").
Proof. vm_compute. split; reflexivity. Qed.
(** The empty name is refused after asking for all loads. *)
Theorem empty_output_refused_late : exists tr w m, ex_dig ex_dbs [] [] = (tr, w, Err m) /\ map kind tr = 0 :: repeat 1 56 ++ [2].
Proof. eexists _, _, _. split; vm_compute; reflexivity. Qed.
Lemma pi_first : forall (sv : services nat) vadd vlt vzero parse_time now start_text output w tr w' r,
    pi_main sv vadd vlt vzero parse_time now start_text output w = (tr, w', r) ->
    exists tl, tr = said (GDescribe [lit "mysql"]) (snd (sv w (GDescribe [lit "mysql"]))) :: tl.
Proof.
  intros sv vadd vlt vzero parse_time now start_text output w tr w' r E. unfold pi_main in E. unfold dthen at 1, perform at 1 in E.
  destruct (sv w (GDescribe [lit "mysql"])) as [w1 a]. cbn [snd].
  match type of E with (match ?p with _ => _ end) = _ => destruct p as [[tr' w2] r'] end. injection E as <- _ _. exists tr'. reflexivity.
Qed.
Lemma ex_talk : forall store start_text output tr w r, ex_dig store start_text output = (tr, w, r) ->
    pi_talk Qplus qlt (Qeq_bool 0) ex_start (ex_at 604800000000000) start_text output tr r /\
    exists tl, tr = said (GDescribe [lit "mysql"]) (Ok (firstn 100 store)) :: tl.
Proof.
  intros store start_text output tr w r E. unfold ex_dig in E. split; [|exact (pi_first _ _ _ _ _ _ _ _ _ _ _ _ E)].
  exact (proj2 (pi_talks (ex_aws store) Qplus qlt (Qeq_bool 0) ex_start (ex_at 604800000000000) start_text output ex_order 0 tr w r E)).
Qed.
Lemma ex_done : forall is text output tr start, pi_talk Qplus qlt (Qeq_bool 0) ex_start (ex_at 604800000000000) text output tr (Ok tt) ->
    (exists tl, tr = said (GDescribe [lit "mysql"]) (Ok is) :: tl) -> text <> [] -> ex_start text = Ok start ->
    exists dbs l b, loads_asked dbs start l /\ length l = 28 * length dbs /\ pi_report Qplus qlt (Qeq_bool 0) dbs start l b /\
      length dbs = length is /\ In (said (GCreate output b) None) tr.
Proof.
  intros is0 text output tr s0 HT (tl & ED) NT ES.
  inversion HT as [a r H1 H2|is dbs r H1 H2 H3 H4|is dbs start l rq a r H1 H2 H3 H4 H5 H6|is dbs start l b m r H1 H2 H3 H4 H5 H6 H7].
  - destruct a; discriminate.
  - now elim (H4 tt).
  - destruct a; discriminate.
  - destruct m; [discriminate|]. assert (start = s0). { destruct H2 as [[K _]|[_ K]]; [contradiction|]. rewrite ES in K. now injection K. } subst start.
    exists dbs, l, b. split; [exact H3|]. split; [exact H4|]. split; [exact H6|]. split.
    + rewrite ED in H. apply (f_equal (hd (said GHangUp None))) in H. cbn [hd] in H.
      assert (EI : is0 = is).
      { assert (G : forall x y : list instance, said (GDescribe [lit "mysql"]) (Ok x) = said (GDescribe [lit "mysql"]) (Ok y) -> x = y).
        { intros x y Exy. apply (f_equal (fun z : exchange => match z with existT _ a q => match a return reply a -> list instance with GDescribe _ => fun q => match q with Ok o => o | _ => [] end | _ => fun _ => [] end q end)) in Exy. exact Exy. }
        symmetry. apply G. exact H. }
      subst is0. clear - H1. induction H1 as [|x y xs ys _ _ IH]; [reflexivity|]. cbn [length]. now rewrite IH.
    + right. apply in_or_app. right. now left.
Qed.
(** The hypotheses of [pi_shows_loads] and [pi_page_opens] *)
Example pi_shows_loads_ex : exists dbs l b tr w, ex_dig ex_dbs (lit "1970-01-01T00:30:00Z") (lit "o.html") = (tr, w, Ok tt) /\
  loads_asked dbs (ex_at 1800000000000) l /\ length l = 28 * length dbs /\ pi_report Qplus qlt (Qeq_bool 0) dbs (ex_at 1800000000000) l b /\
  (3600000000000 | offset_of (t_loc (ex_at 1800000000000)))%Z /\ length dbs = 2 /\ In (said (GCreate (lit "o.html") b) None) tr.
Proof.
  pose proof pi_talks_ex as KE. pose proof (ex_talk ex_dbs (lit "1970-01-01T00:30:00Z") (lit "o.html")) as KT.
  destruct (ex_dig ex_dbs (lit "1970-01-01T00:30:00Z") (lit "o.html")) as [[tr w] r]. destruct (KT tr w r eq_refl) as [HT HD]. destruct KE as (_ & _ & ->).
  destruct (ex_done ex_dbs (lit "1970-01-01T00:30:00Z") (lit "o.html") tr (ex_at 1800000000000) HT HD) as (dbs & l & b & K1 & K2 & K3 & K4 & K5); [discriminate|reflexivity|].
  exists dbs, l, b, tr, w. split; [reflexivity|]. split; [exact K1|]. split; [exact K2|]. split; [exact K3|]. split; [exists 0%Z; reflexivity|]. split; [exact K4|exact K5].
Qed.
(** 101 instances *)
Definition many : list instance := map (fun i => (Some (lit "db"), Some (repeat 97%N i))) (seq 0 101).
Example further_instances_missed_ex : NoDup (map snd many) /\ In (Some (lit "db"), Some (repeat 97%N 100)) (skipn 100 many) /\
  (let '(tr, w, r) := ex_dig many [] (lit "o.html") in w = 2800 /\ r = Ok tt).
Proof.
  split; [|split; [left; reflexivity|vm_compute; split; reflexivity]].
  unfold many. rewrite map_map. apply FinFun.Injective_map_NoDup; [|apply seq_NoDup].
  intros i j E. cbn [snd] in E. injection E as E. apply (f_equal (@length N)) in E. now rewrite !repeat_length in E.
Qed.
Print Assumptions pi_talks.
Print Assumptions pi_success_writes.
Print Assumptions pi_shows_loads.
Print Assumptions pi_page_opens.
Print Assumptions further_instances_missed.
Print Assumptions empty_output_refused_late.
