(** C130, C131: what a dig command logs and when; how the answers of Jaeger are received. *)
From Coq Require Import String List NArith ZArith QArith Bool Lia Arith.
From Verif Require Import Base Dec ExplainTree Lib Otel Pi HandOver Paths DigProgram Diary DiarySpec DiaryProofs DigDiary DigDiarySpec.
From Verif Require ConnText DiaryProperties.
Import ListNotations.
Local Open Scope nat_scope.

(** ** Without the lines *)
Section Hush.
Context {W : Type} (sv : services W).
Definition dhushed {A} (p : @dnoisy W A) (q : @dprog W A) : Prop := forall w, hush (p w) = q w.
Lemma dquiet_hush : forall A (p : @dprog W A), dhushed (dquiet p) p.
Proof. intros A p w. unfold dquiet. destruct (p w) as [[tr w1] r]. cbn. now rewrite acts_did. Qed.
Lemma dnthen_hush : forall A B (p : @dnoisy W A) p' (f : A -> @dnoisy W B) f', dhushed p p' -> (forall x, dhushed (f x) (f' x)) -> dhushed (dnthen p f) (dthen p' f').
Proof.
  intros A B p p' f f' HP HF w. unfold dnthen, dthen. rewrite <- HP. destruct (p w) as [[d w1] [x|m|]]; try reflexivity. cbn.
  rewrite <- HF. destruct (f x w1) as [[d' w2] r]. cbn. now rewrite acts_app.
Qed.
Lemma dsay_hush : forall B l (f : unit -> @dnoisy W B) q, dhushed (f tt) q -> dhushed (dnthen (dsay l) f) q.
Proof.
  intros B l f q H w. unfold dnthen, dsay. rewrite <- H. destruct (f tt w) as [[d w1] r]. cbn. now rewrite acts_app, acts_said.
Qed.
Lemma dsay_last : forall (p : @dnoisy W unit) q ls, dhushed p q -> dhushed (dnthen p (fun _ => dsay ls)) q.
Proof.
  intros p q ls H w. unfold dnthen, dsay. rewrite <- H. destruct (p w) as [[d w1] [[]|m|]]; try reflexivity. cbn. now rewrite acts_app, acts_said, app_nil_r.
Qed.
Lemma dgive_hush : forall A (x : outcome A), dhushed (dquiet (dgive x)) (dgive x).
Proof. intros. apply dquiet_hush. Qed.
Lemma fetch_hush : forall ords srt fmt fl size dur times j,
    dhushed (fetch_told sv ords srt fmt fl size dur j times) (fetch_all sv ords srt fl size dur j times).
Proof.
  intros ords srt fmt fl size dur. induction times as [|t times IH]; intros j; [apply dquiet_hush|]. cbn [fetch_told fetch_all]. apply dsay_hush.
  apply dnthen_hush; [apply dquiet_hush|]. intros a. apply dnthen_hush; [apply dquiet_hush|]. intros cs. apply dnthen_hush; [apply IH|]. intros r. apply dquiet_hush.
Qed.
Lemma created_hush : forall wd path b,
    dhushed (dnthen (dquiet (perform sv (GCreate path b))) (fun e => dnthen (dquiet (dgive (failed_with e))) (fun _ => dsay (output_lines wd path))))
            (dthen (perform sv (GCreate path b)) (fun e => dgive (failed_with e))).
Proof. intros wd path b. apply dnthen_hush; [apply dquiet_hush|]. intros e. apply dsay_last, dquiet_hush. Qed.
Lemma jaeger_hush : forall wd ords srt ordc ordv ordt srtt parse_time fmt fmt_end env now fl,
    dhushed (jaeger_told sv wd ords srt ordc ordv ordt srtt parse_time fmt fmt_end env now fl) (jaeger_main sv ords srt ordc ordv ordt srtt parse_time env now fl).
Proof.
  intros. unfold jaeger_told, jaeger_main. apply dnthen_hush; [apply dquiet_hush|]. intros p. unfold jaeger_run_told, jaeger_run.
  apply dnthen_hush; [apply dquiet_hush|]. intros [m|]; [apply dquiet_hush|].
  assert (K : dhushed (jaeger_dig_told sv wd ords srt ordc ordv ordt srtt fmt fmt_end fl (fst (snd p)) (fst (fst p)) (snd (fst p)))
                      (jaeger_dig sv ords srt ordc ordv ordt srtt fl (fst (snd p)) (fst (fst p)) (snd (fst p)))).
  { unfold jaeger_dig_told, jaeger_dig. apply dsay_hush. destruct (generate_time_ranges 48 _ _ half_hour) as [times|]; [|apply dquiet_hush].
    apply dnthen_hush; [apply fetch_hush|]. intros traces. apply dnthen_hush; [apply dquiet_hush|]. intros slow. cbv zeta. apply dsay_hush.
    destruct (jf_output fl) as [|c o]; [apply dquiet_hush|]. apply created_hush. }
  intros w. rewrite <- K. destruct (jaeger_dig_told _ _ _ _ _ _ _ _ _ _ _ _ _ _ w) as [[d w1] r]. cbn [hush]. destruct (sv w1 GHangUp) as [w2 x]. cbn [hush]. now rewrite acts_app.
Qed.
Lemma db_hush : forall vzero fmt k db t, dhushed (db_loads_told sv vzero fmt k db t) (db_loads sv vzero k db t).
Proof.
  intros vzero fmt. induction k as [|k IH]; intros db t; [apply dquiet_hush|]. cbn [db_loads_told db_loads]. apply dsay_hush.
  apply dnthen_hush; [apply dquiet_hush|]. intros a. apply dnthen_hush; [apply dquiet_hush|]. intros b. apply dnthen_hush; [apply IH|]. intros r. apply dquiet_hush.
Qed.
Lemma all_hush : forall vzero fmt dbs t, dhushed (all_loads_told sv vzero fmt dbs t) (all_loads sv vzero dbs t).
Proof.
  intros vzero fmt. induction dbs as [|db dbs IH]; intros t; [apply dquiet_hush|]. cbn [all_loads_told all_loads]. apply dnthen_hush; [apply db_hush|].
  intros a. apply dnthen_hush; [apply IH|]. intros r. apply dquiet_hush.
Qed.
Lemma pi_hush : forall wd vadd vlt vzero parse_time fmt now start_text output,
    dhushed (pi_told sv wd vadd vlt vzero parse_time fmt now start_text output) (pi_main sv vadd vlt vzero parse_time now start_text output).
Proof.
  intros. unfold pi_told, pi_main. apply dnthen_hush; [apply dquiet_hush|]. intros a. apply dnthen_hush; [apply dquiet_hush|]. intros dbs.
  apply dnthen_hush; [apply dquiet_hush|]. intros start. apply dnthen_hush; [apply all_hush|]. intros r.
  destruct (convert_loads vadd vlt 171 start _ (fst r)) as [rows|]; [|apply dquiet_hush]. destruct (convert_loads vadd vlt 171 start _ (snd r)) as [trows|]; [|apply dquiet_hush].
  apply created_hush.
Qed.
End Hush.

(** ** Places *)
Lemma lines_app : forall l a b, lines_at l (a ++ b) = lines_at l a ++ lines_at l b.
Proof. intros. unfold lines_at. rewrite said_app. apply flat_map_app. Qed.
Lemma finds_app : forall a b, finds_of (a ++ b) = finds_of a ++ finds_of b.
Proof. intros. unfold finds_of. rewrite acts_app. apply flat_map_app. Qed.
Lemma metrics_app : forall a b, metrics_of (a ++ b) = metrics_of a ++ metrics_of b.
Proof. intros. unfold metrics_of. rewrite acts_app. apply flat_map_app. Qed.
Lemma reports_app : forall a b, reports_of (a ++ b) = reports_of a ++ reports_of b.
Proof. intros. unfold reports_of. rewrite acts_app. apply flat_map_app. Qed.
Section Adjacent.
Context (bad : exchange -> Prop) (ok : exchange -> entry exchange -> Prop).
Definition adj (d : list (entry exchange)) : Prop := forall p a q, d = p ++ Did a :: q -> bad a -> exists p' e, p = p' ++ [e] /\ ok a e.
Lemma adj_app : forall a b, adj a -> adj b -> adj (a ++ b).
Proof.
  intros a b HA HB p x q H E. apply app_eq_app in H as (l & [[H1 H2]|[H1 H2]]).
  - destruct l as [|e l].
    + cbn in H2. destruct (HB [] x q) as (p' & e' & K & _); [now rewrite <- H2|exact E|]. now destruct p'.
    + injection H2 as <- H2. apply (HA p x l H1 E).
  - destruct (HB l x q H2 E) as (p' & e' & K1 & K2). exists (a ++ p'), e'. split; [|exact K2]. rewrite H1, K1. now rewrite app_assoc.
Qed.
Lemma adj_calm : forall d, (forall a, In (Did a) d -> ~ bad a) -> adj d.
Proof. intros d H p a q -> E. elim (H a (in_elt _ _ _) E). Qed.
Lemma adj_said : forall l t a, ok a (Said l t) -> adj [Said l t; Did a].
Proof.
  intros l t a H p x q E B. destruct p as [|y [|z p]]; [discriminate| |injection E as _ _ E; now destruct p]. injection E as <- <- _. now exists [], (Said l t).
Qed.
Lemma adj_did : forall l t a b, ok a (Said l t) -> ok b (Did a) -> adj [Said l t; Did a; Did b].
Proof.
  intros l t a b H K p x q E B. destruct p as [|y [|z [|u p]]]; [discriminate| | |injection E as _ _ _ E; now destruct p].
  - injection E as <- <- _. now exists [], (Said l t).
  - injection E as <- <- <- _. now exists [Said l t], (Did a).
Qed.
End Adjacent.

(** ** Jaeger *)
Definition windows (fmt : Z -> gostring) (l : list (Z * exchange)) : list (entry exchange) := flat_map (fun p => [Said Info (getting (fmt (fst p))); Did (snd p)]) l.
Definition asked_at (p : Z * exchange) : Prop := exists q x, snd p = DigProgram.said (GFind q) x /\ find_at (fst p) q.
Section Jaeger.
Context {W : Type} (sv : services W) (wd : option gostring) (ords : nat -> nat -> list bytes -> list bytes) (srt : list (tree node) -> list (tree node))
  (ordc : list (gostring * Z) -> list (gostring * Z)) (ordv ordt : nat -> list (gostring * Z) -> list (gostring * Z)) (srtt : list (Z * Z) -> list (Z * Z))
  (parse_time : gostring -> outcome Z) (fmt fmt_end : Z -> gostring) (env : gostring -> gostring) (now : Z) (fl : jaeger_flags).
Lemma fetch_shape : forall size dur times j w d w' r, fetch_told sv ords srt fmt fl size dur j times w = (d, w', r) ->
    exists l, d = windows fmt l /\ Forall asked_at l.
Proof.
  intros size dur. induction times as [|t times IH]; intros j w d w' r H.
  - cbn in H. injection H as <- _ _. now exists [].
  - cbn [fetch_told] in H. unfold dnthen, dsay, dquiet, perform, dgive in H. cbn [fst snd map app] in H.
    destruct (sv w (GFind (query_at size (jf_service fl) dur t))) as [w1 a] eqn:E. cbn [map app] in H.
    assert (A : asked_at (t, DigProgram.said (GFind (query_at size (jf_service fl) dur t)) a)) by (exists (query_at size (jf_service fl) dur t), a; split; [reflexivity|split; reflexivity]).
    destruct (do traces <- a; find_compacted (ords j) srt 0 traces) as [cs|m|].
    + destruct (fetch_told sv ords srt fmt fl size dur (S j) times w1) as [[d2 w2] r2] eqn:E2. destruct (IH _ _ _ _ _ E2) as (l & -> & F).
      exists ((t, DigProgram.said (GFind (query_at size (jf_service fl) dur t)) a) :: l). split; [|now constructor].
      destruct r2; injection H as <- _ _; cbn [windows flat_map app fst snd]; rewrite ?app_nil_r; reflexivity.
    + injection H as <- _ _. exists [(t, DigProgram.said (GFind (query_at size (jf_service fl) dur t)) a)]. split; [reflexivity|auto].
    + injection H as <- _ _. exists [(t, DigProgram.said (GFind (query_at size (jf_service fl) dur t)) a)]. split; [reflexivity|auto].
Qed.
Lemma traces_views : forall slow k, Forall2 trace_told (views ordv ordt srtt k slow) (map trace_line slow).
Proof.
  induction slow as [|t slow IH]; intros k; cbn [views map]; constructor; [|apply IH]. unfold trace_told, trace_line. destruct t. reflexivity.
Qed.
Definition trace_block (ls : list gostring) : list (entry exchange) := map (Said Debug) (of_string "found traces: ----start" :: ls ++ [of_string "found traces: ----end "]).
Definition rest_shape (rest : list (entry exchange)) (r : outcome unit) : Prop :=
  (rest = [] /\ r <> Ok tt) \/
  exists ls, (rest = trace_block ls /\ jf_output fl = []) \/
    exists jd x, Forall2 trace_told (jd_slow jd) ls /\ jf_output fl <> [] /\
      rest = trace_block ls ++ Did (DigProgram.said (GCreate (jf_output fl) (BoJaeger jd)) x) :: map (Said Info) (DiaryProperties.end_lines wd (jf_output fl) r).
Definition dig_line (start end_ : Z) : gostring :=
  lit "Dig traces from " ++ fmt start ++ lit " to " ++ fmt_end end_ ++ lit " taking more than " ++ int_text (jf_millis fl) ++ lit " millis)".
Lemma block_said : forall slow, map (fun p => @Said exchange (fst p) (snd p)) (trace_lines slow) = trace_block (map trace_line slow).
Proof. intros slow. unfold trace_lines, trace_block. rewrite map_map. reflexivity. Qed.
Lemma dig_shape : forall ui start end_ w d w' r, jaeger_dig_told sv wd ords srt ordc ordv ordt srtt fmt fmt_end fl ui start end_ w = (d, w', r) ->
    exists l rest, d = Said Info (dig_line start end_) :: windows fmt l ++ rest /\ Forall asked_at l /\ rest_shape rest r.
Proof.
  intros ui start end_ w d w' r H. unfold jaeger_dig_told in H. unfold dnthen at 1 in H. unfold dsay at 1 in H. cbn [fst snd map] in H. fold (dig_line start end_) in H.
  destruct (generate_time_ranges 48 start end_ half_hour) as [times|].
  2:{ cbn in H. injection H as <- _ <-. exists [], []. repeat apply conj; [reflexivity|constructor|]. left. split; [reflexivity|discriminate]. }
  unfold dnthen at 1 in H. destruct (fetch_told sv ords srt fmt fl _ _ 0 times w) as [[d1 w1] r1] eqn:E. apply fetch_shape in E as (l & -> & F).
  destruct r1 as [traces|m|].
  2,3: injection H as <- _ <-; exists l, []; rewrite app_nil_r; repeat apply conj; [reflexivity|exact F|left; split; [reflexivity|discriminate]].
  unfold dnthen at 1, dquiet at 1, dgive at 1 in H. cbn [map] in H. destruct (pick_slow 100 traces) as [slow|m|].
  2,3: injection H as <- _ <-; exists l, []; rewrite app_nil_r; repeat apply conj; [reflexivity|exact F|left; split; [reflexivity|discriminate]].
  unfold dnthen at 1, dsay at 1 in H. rewrite block_said in H.
  destruct (jf_output fl) as [|c o] eqn:O.
  - cbn [dquiet dgive map app] in H. injection H as <- _ <-. exists l, (trace_block (map trace_line slow)). rewrite app_nil_r. repeat apply conj; [reflexivity|exact F|].
    right. exists (map trace_line slow). left. now split.
  - unfold dnthen, dquiet, dgive, dsay, perform in H. set (b := jaeger_html ordv ordt srtt fl ui slow (pick_same_service ordc (jf_threshold fl) traces)) in H.
    destruct (sv w1 (GCreate (c :: o) b)) as [w2 e] eqn:E2. cbn [map app] in H. unfold failed_with in H.
    exists l, (trace_block (map trace_line slow) ++ Did (DigProgram.said (GCreate (c :: o) b) e) :: map (Said Info) (DiaryProperties.end_lines wd (c :: o) r)).
    assert (K : rest_shape (trace_block (map trace_line slow) ++ Did (DigProgram.said (GCreate (c :: o) b) e) :: map (Said Info) (DiaryProperties.end_lines wd (c :: o) r)) r).
    { right. exists (map trace_line slow). right. rewrite O. eexists _, e. split; [|split; [discriminate|reflexivity]]. apply traces_views. }
    destruct e as [m|]; injection H as <- _ <-.
    + cbn [DiaryProperties.end_lines map]. rewrite ?app_nil_r. repeat apply conj; [reflexivity|exact F|exact K].
    + repeat apply conj; [|exact F|exact K]. do 4 f_equal. unfold DiaryProperties.end_lines, output_lines. destruct (logged_output wd (c :: o)); reflexivity.
Qed.
Definition find_before (a : exchange) (e : entry exchange) : Prop := exists q x t, a = DigProgram.said (GFind q) x /\ e = Said Info (getting (fmt t)) /\ find_at t q.
Definition is_find (a : exchange) : Prop := exists q x, a = DigProgram.said (GFind q) x.
Lemma windows_facts : forall l, Forall asked_at l ->
    exists times, Forall2 find_at times (finds_of (windows fmt l)) /\ lines_at Info (windows fmt l) = map (fun t => getting (fmt t)) times /\ adj is_find find_before (windows fmt l) /\
      reports_of (windows fmt l) = [].
Proof.
  induction 1 as [|[t a] l (q & x & E & K) F (times & I1 & I2 & I3 & I4)].
  - exists []. repeat apply conj; try constructor. intros p a q E. now destruct p.
  - cbn [fst snd] in *. subst a. exists (t :: times). cbn [windows flat_map fst snd app]. repeat apply conj.
    + constructor; [exact K|exact I1].
    + cbn [map]. unfold lines_at. cbn [Diary.said flat_map fst snd app]. f_equal. exact I2.
    + apply (adj_app _ _ [_; _]); [|exact I3]. apply adj_said. exists q, x, t. auto.
    + exact I4.
Qed.
Lemma said_at : forall (l : level) ls, Diary.said (map (@Said exchange l) ls) = map (fun t => (l, t)) ls.
Proof. intros l. induction ls as [|t ls IH]; [reflexivity|]. cbn. f_equal. exact IH. Qed.
Lemma said_acts : forall (l : level) ls, acts (map (@Said exchange l) ls) = [].
Proof. intros l. induction ls as [|t ls IH]; [reflexivity|]. cbn. exact IH. Qed.
Lemma lines_said : forall ls, lines_at Info (map (Said Info) ls) = ls.
Proof. intros ls. unfold lines_at. rewrite said_at. induction ls as [|t ls IH]; [reflexivity|]. cbn. f_equal. exact IH. Qed.
Lemma lines_debug : forall ls, lines_at Info (map (Said Debug) ls) = [].
Proof. intros ls. unfold lines_at. rewrite said_at. induction ls as [|t ls IH]; [reflexivity|]. cbn. exact IH. Qed.
Lemma calm_said : forall l ls (bad : exchange -> Prop), forall a, In (Did a) (map (Said l) ls) -> ~ bad a.
Proof. intros l ls bad a H. apply in_map_iff in H as (? & H & _). discriminate. Qed.
Lemma rest_facts : forall rest r, rest_shape rest r ->
    finds_of rest = [] /\ lines_at Info rest = DiaryProperties.end_lines wd (jf_output fl) r /\ (forall a, In (Did a) rest -> ~ is_find a).
Proof.
  intros rest r [[-> H]|(ls & [[-> H]|(jd & x & F & H & ->)])].
  - repeat apply conj; [reflexivity| |intros a []]. destruct r as [[]|m|]; [now elim H|reflexivity|reflexivity].
  - unfold trace_block. unfold finds_of. rewrite said_acts, lines_debug, H. repeat apply conj; [reflexivity| |apply calm_said]. now destruct r.
  - unfold trace_block. rewrite finds_app, lines_app, lines_debug. unfold finds_of at 1. rewrite said_acts. cbn [flat_map app].
    split; [|split].
    + unfold finds_of. cbn [acts]. rewrite said_acts. reflexivity.
    + unfold lines_at. cbn [Diary.said]. apply lines_said.
    + intros a K. apply in_app_or in K as [K|[K|K]]; [intros _; now apply (calm_said _ _ (fun _ => True)) in K|injection K as <-; intros (q & y & E)|intros _; now apply (calm_said _ _ (fun _ => True)) in K].
      apply (f_equal (@projT1 _ _)) in E. discriminate.
Qed.
Lemma rest_reports : forall rest r p b, rest_shape rest r -> In (p, b) (reports_of rest) -> traces_told p b rest.
Proof.
  intros rest r p b [[-> H]|(ls & [[-> H]|(jd & x & F & H & ->)])] HI; [destruct HI| |].
  - unfold reports_of, trace_block in HI. rewrite said_acts in HI. destruct HI.
  - unfold reports_of, trace_block in HI. rewrite acts_app, said_acts in HI. cbn [acts app] in HI. rewrite said_acts in HI. destruct HI as [HI|[]]. injection HI as <- <-.
    exists jd, [], ls, (map (Said Info) (DiaryProperties.end_lines wd (jf_output fl) r)), x. repeat apply conj; [reflexivity|exact F|reflexivity].
Qed.
Lemma told_around : forall a d z p b, traces_told p b d -> traces_told p b (a ++ d ++ z).
Proof.
  intros a d z p b (jd & before & ls & after & x & E & F & ->). exists jd, (a ++ before), ls, (after ++ z), x. repeat apply conj; [exact E|exact F|].
  rewrite <- !app_assoc. reflexivity.
Qed.
Lemma dig_line_told : forall p, jaeger_prepare parse_time env now fl = Ok p -> span_told parse_time fmt fmt_end now fl (dig_line (fst (fst p)) (snd (fst p))).
Proof.
  intros p H. unfold jaeger_prepare in H.
  assert (K : exists given, fst p = dig_span now given /\ (jf_start fl = [] /\ given = None \/ jf_start fl <> [] /\ exists t, parse_time (jf_start fl) = Ok t /\ given = Some t)).
  { destruct (ConnText.get_env env (lit "JAEGER_UI_URL")) as [u|u|]; destruct (ConnText.get_env env (lit "JAEGER_GRPC_ADDRESS")) as [v|v|];
      destruct (jf_start fl) as [|c s]; try destruct (parse_time (c :: s)) as [t|m|]; cbn [obind] in H; try discriminate H; injection H as <-.
    - exists None. split; [reflexivity|left; auto].
    - exists (Some t). split; [reflexivity|right; split; [discriminate|]]. now exists t. }
  destruct K as (given & -> & K).
  assert (D : forall s, (if Z.ltb now (s + day) then now else s + day)%Z = Z.min now (s + 86400000000000)%Z).
  { intros s. unfold day. destruct (Z.ltb_spec now (s + 86400000000000)); lia. }
  unfold dig_span. rewrite D. cbn [fst snd]. unfold span_told.
  destruct K as [[K ->]|[K (t & E & ->)]].
  - exists (now - 86400000000000)%Z, (int_text (jf_millis fl)). split; [left; auto|]. split; [apply DiaryProperties.int_whole|]. reflexivity.
  - exists t, (int_text (jf_millis fl)). split; [right; auto|]. split; [apply DiaryProperties.int_whole|]. reflexivity.
Qed.
Theorem jaeger_diary : forall w d w' r, jaeger_told sv wd ords srt ordc ordv ordt srtt parse_time fmt fmt_end env now fl w = (d, w', r) ->
    jaeger_main sv ords srt ordc ordv ordt srtt parse_time env now fl w = (acts d, w', r) /\
    (exists head tail,
       ((head = [] /\ r <> Ok tt /\ finds_of d = []) \/ exists line, head = [line] /\ span_told parse_time fmt fmt_end now fl line) /\
       report_told wd (jf_output fl) r tail /\ finds_told fmt head tail d) /\
    (forall p b, In (p, b) (reports_of d) -> traces_told p b d).
Proof.
  intros w d w' r H. split.
  { pose proof (jaeger_hush sv wd ords srt ordc ordv ordt srtt parse_time fmt fmt_end env now fl w) as K. rewrite H in K. symmetry. exact K. }
  assert (P : (forall a, In (Did a) d -> ~ is_find a) -> lines_at Info d = [] -> finds_of d = [] -> reports_of d = [] -> r <> Ok tt ->
      (exists head tail, ((head = [] /\ r <> Ok tt /\ finds_of d = []) \/ exists line, head = [line] /\ span_told parse_time fmt fmt_end now fl line) /\
       report_told wd (jf_output fl) r tail /\ finds_told fmt head tail d) /\ (forall p b, In (p, b) (reports_of d) -> traces_told p b d)).
  { intros C L F R N. split.
    - exists [], []. split; [left; auto|]. split; [destruct r as [[]|m|]; [now elim N|reflexivity|reflexivity]|]. split.
      + exists []. rewrite F, L. split; [constructor|reflexivity].
      + intros p q x rest E. elim (C (DigProgram.said (GFind q) x)); [rewrite E; apply in_elt|now exists q, x].
    - rewrite R. intros p b []. }
  unfold jaeger_told in H. unfold dnthen at 1, dquiet at 1, dgive at 1 in H. cbn [map] in H.
  destruct (jaeger_prepare parse_time env now fl) as [p|m|] eqn:E.
  2,3: injection H as <- _ <-; apply P; [intros a []|reflexivity|reflexivity|reflexivity|discriminate].
  cbn [app] in H. unfold jaeger_run_told in H. unfold dnthen at 1, dquiet at 1, perform at 1 in H.
  destruct (sv w (GDial (snd (snd p)))) as [w1 [m|]] eqn:E1.
  { cbn in H. injection H as <- _ <-. apply P; try reflexivity; [|discriminate]. intros a [K|[]]. injection K as <-. intros (q & x & K). apply (f_equal (@projT1 _ _)) in K. discriminate. }
  cbn [map app] in H. destruct (jaeger_dig_told _ _ _ _ _ _ _ _ _ _ _ _ _ _ w1) as [[d1 w2] r1] eqn:E2. destruct (sv w2 GHangUp) as [w3 x] eqn:E3. injection H as <- _ <-.
  apply dig_shape in E2 as (l & rest & -> & F & S'). destruct (windows_facts l F) as (times & A1 & A2 & A3 & A4). destruct (rest_facts _ _ S') as (B1 & B2 & B3).
  set (line := dig_line (fst (fst p)) (snd (fst p))) in *.
  set (dial := Did (DigProgram.said (GDial (snd (snd p))) None)). set (bye := Did (DigProgram.said GHangUp x)).
  assert (NF : forall e b, (forall q, projT1 e <> GFind q) -> Did e = Did b -> ~ is_find b).
  { intros e b N K (q & y & Q). injection K as K. apply (N q). rewrite K, Q. reflexivity. }
  split.
  - exists [line], (DiaryProperties.end_lines wd (jf_output fl) r1). split; [right; exists line; split; [reflexivity|now apply dig_line_told]|]. split; [apply DiaryProperties.end_lines_told|]. split.
    + exists times. split.
      * change (dial :: (Said Info line :: windows fmt l ++ rest) ++ [bye]) with ([dial; Said Info line] ++ (windows fmt l ++ rest) ++ [bye]).
        rewrite !finds_app, B1, app_nil_r. change (finds_of [dial; Said Info line]) with (@nil Otel.query). change (finds_of [bye]) with (@nil Otel.query). rewrite app_nil_r. exact A1.
      * change (dial :: (Said Info line :: windows fmt l ++ rest) ++ [bye]) with ([dial; Said Info line] ++ (windows fmt l ++ rest) ++ [bye]).
        rewrite !lines_app, A2, B2. change (lines_at Info [bye]) with (@nil gostring). rewrite app_nil_r. reflexivity.
    + assert (G : adj is_find find_before ([dial; Said Info line] ++ windows fmt l ++ (rest ++ [bye]))).
      { apply adj_app; [|apply adj_app; [exact A3|]]; apply adj_calm.
        - intros a [K|[K|[]]]; [|discriminate]. eapply NF; [|exact K]. intros q. discriminate.
        - intros a K. apply in_app_or in K as [K|[K|[]]]; [now apply B3|]. eapply NF; [|exact K]. intros q. discriminate. }
      intros p0 q y rest0 EQ. destruct (G p0 (DigProgram.said (GFind q) y) rest0) as (p' & e & K1 & (q' & y' & t & K2 & K3 & K4)).
      * rewrite <- EQ. cbn [app]. now rewrite <- app_assoc.
      * now exists q, y.
      * apply (f_equal (@projT1 _ _)) in K2. cbn in K2. injection K2 as ->. exists p', t. subst e. auto.
  - intros p0 b HI. assert (HR : In (p0, b) (reports_of rest)).
    { revert HI. change (dial :: (Said Info line :: windows fmt l ++ rest) ++ [bye]) with ([dial; Said Info line] ++ (windows fmt l ++ rest) ++ [bye]).
      rewrite !reports_app, A4. change (reports_of [dial; Said Info line]) with (@nil (gostring * build_option)). change (reports_of [bye]) with (@nil (gostring * build_option)).
      rewrite app_nil_r. trivial. }
    apply (rest_reports _ _ _ _ S') in HR. apply (told_around (dial :: Said Info line :: windows fmt l) _ [bye]) in HR. cbn [app] in HR |- *. rewrite <- app_assoc. exact HR.
Qed.
End Jaeger.

(** ** Performance Insights *)
Section Insights.
Context {W : Type} (sv : services W) (wd : option gostring) (vadd : Q -> Q -> Q) (vlt : Q -> Q -> bool) (vzero : Q -> bool) (parse_time : gostring -> outcome gtime)
  (fmt : gtime -> gostring) (now : gtime) (start_text output : gostring).
Definition is_metrics (a : exchange) : Prop := exists rq x, a = DigProgram.said (GMetrics rq) x.
Definition metrics_before (a : exchange) (e : entry exchange) : Prop := exists rq x, a = DigProgram.said (GMetrics rq) x /\
  ((rq_group rq = of_string "db.sql" /\ e = Said Info (getting (fmt (rq_start rq)))) \/
   (rq_group rq = of_string "db.sql_tokenized" /\ exists rq' x', e = Did (DigProgram.said (GMetrics rq') x') /\ rq_group rq' = of_string "db.sql" /\
      rq_identifier rq' = rq_identifier rq /\ rq_start rq' = rq_start rq /\ rq_end rq' = rq_end rq)).
Definition mt (d : list (entry exchange)) : Prop :=
  lines_at Info d = map (fun rq => getting (fmt (rq_start rq))) (filter by_sql (metrics_of d)) /\ adj is_metrics metrics_before d.
Lemma mt_app : forall a b, mt a -> mt b -> mt (a ++ b).
Proof. intros a b [A1 A2] [B1 B2]. split; [|now apply adj_app]. now rewrite lines_app, metrics_app, filter_app, map_app, A1, B1. Qed.
Lemma mt_nil : mt [].
Proof. split; [reflexivity|]. intros p a q E. now destruct p. Qed.
Definition sql_rq (db : rds_db) (t : gtime) : Pi.request := half_day_request db t (lit "db.sql").
Definition tok_rq (db : rds_db) (t : gtime) : Pi.request := half_day_request db t (lit "db.sql_tokenized").
Lemma mt_one : forall db t x, mt [Said Info (getting (fmt t)); Did (DigProgram.said (GMetrics (sql_rq db t)) x)].
Proof.
  intros db t x. split; [reflexivity|]. apply adj_said. exists (sql_rq db t), x. split; [reflexivity|]. left. split; reflexivity.
Qed.
Lemma mt_two : forall db t x y, mt [Said Info (getting (fmt t)); Did (DigProgram.said (GMetrics (sql_rq db t)) x); Did (DigProgram.said (GMetrics (tok_rq db t)) y)].
Proof.
  intros db t x y. split; [reflexivity|]. apply adj_did.
  - exists (sql_rq db t), x. split; [reflexivity|]. left. split; reflexivity.
  - exists (tok_rq db t), y. split; [reflexivity|]. right. split; [reflexivity|]. exists (sql_rq db t), x. repeat apply conj; reflexivity.
Qed.
Lemma half_did : forall db t g s k w d w' r, half_day_loads sv vzero db t g s k w = (d, w', r) -> exists x, d = [DigProgram.said (GMetrics (half_day_request db t g)) x].
Proof.
  intros db t g s k w d w' r H. unfold half_day_loads, dthen, perform, dgive in H. destruct (sv w (GMetrics (half_day_request db t g))) as [w1 x]. exists x. now injection H as <- _ _.
Qed.
Lemma db_mt : forall k db t w d w' r, db_loads_told sv vzero fmt k db t w = (d, w', r) -> mt d.
Proof.
  induction k as [|k IH]; intros db t w d w' r H.
  - cbn in H. injection H as <- _ _. apply mt_nil.
  - cbn [db_loads_told] in H. unfold dnthen at 1, dsay at 1 in H. cbn [fst snd map] in H. unfold dnthen at 1, dquiet at 1 in H.
    destruct (half_day_loads sv vzero db t (lit "db.sql") _ _ w) as [[d1 w1] r1] eqn:E1. apply half_did in E1 as (x & ->). fold (sql_rq db t) in H. cbn [map] in H.
    destruct r1 as [a|m|]; [|injection H as <- _ _; apply mt_one|injection H as <- _ _; apply mt_one].
    unfold dnthen at 1, dquiet at 1 in H.
    destruct (half_day_loads sv vzero db t (lit "db.sql_tokenized") _ _ w1) as [[d2 w2] r2] eqn:E2. apply half_did in E2 as (y & ->). fold (tok_rq db t) in H. cbn [map] in H.
    destruct r2 as [b|m|]; [|injection H as <- _ _; apply mt_two|injection H as <- _ _; apply mt_two].
    unfold dnthen at 1 in H. destruct (db_loads_told sv vzero fmt k db (tadd t (12 * hour)) w2) as [[d3 w3] r3] eqn:E3. apply IH in E3.
    destruct r3 as [c|m|]; cbn [dquiet dgive map] in H; rewrite ?app_nil_r in H; injection H as <- _ _; apply (mt_app [_; _; _] d3 (mt_two db t x y) E3).
Qed.
Lemma all_mt : forall dbs t w d w' r, all_loads_told sv vzero fmt dbs t w = (d, w', r) -> mt d.
Proof.
  induction dbs as [|db dbs IH]; intros t w d w' r H.
  - cbn in H. injection H as <- _ _. apply mt_nil.
  - cbn [all_loads_told] in H. unfold dnthen at 1 in H. destruct (db_loads_told sv vzero fmt 14 db t w) as [[d1 w1] r1] eqn:E1. apply db_mt in E1.
    destruct r1 as [a|m|]; [|now injection H as <- _ _|now injection H as <- _ _].
    unfold dnthen at 1 in H. destruct (all_loads_told sv vzero fmt dbs t w1) as [[d2 w2] r2] eqn:E2. apply IH in E2.
    destruct r2 as [b|m|]; cbn [dquiet dgive map] in H; rewrite ?app_nil_r in H; injection H as <- _ _; now apply mt_app.
Qed.
(** [output] empty: the file has no name, and the directory is told *)
Definition pi_tail (r : outcome unit) : list gostring :=
  match r, logged_output wd output with Ok _, Some p => [of_string "Result html is at: " ++ p] | _, _ => [] end.
Theorem pi_diary : forall w d w' r, pi_told sv wd vadd vlt vzero parse_time fmt now start_text output w = (d, w', r) ->
    pi_main sv vadd vlt vzero parse_time now start_text output w = (acts d, w', r) /\
    exists tail, (output <> [] -> report_told wd output r tail) /\ (r <> Ok tt -> tail = []) /\ metrics_told fmt tail d.
Proof.
  intros w d w' r H. split.
  { pose proof (pi_hush sv wd vadd vlt vzero parse_time fmt now start_text output w) as K. rewrite H in K. symmetry. exact K. }
  assert (P : (exists d1 e, d = d1 ++ e /\ mt d1 /\ (forall a, In (Did a) e -> ~ is_metrics a) /\ metrics_of e = [] /\ lines_at Info e = pi_tail r)).
  { assert (DE : forall x, mt [Did (DigProgram.said (GDescribe [lit "mysql"]) x)]).
    { intros x. split; [reflexivity|]. apply adj_calm. intros a [K|[]]. injection K as <-. intros (rq & y & Q). apply (f_equal (@projT1 _ _)) in Q. discriminate. }
    unfold pi_told in H. unfold dnthen at 1, dquiet at 1, perform at 1 in H. destruct (sv w (GDescribe [lit "mysql"])) as [w1 a]. cbn [map] in H.
    set (de := Did (DigProgram.said (GDescribe [lit "mysql"]) a)) in *. specialize (DE a). fold de in DE.
    assert (STOP : forall d1, mt d1 -> r <> Ok tt -> exists d2 e, d1 = d2 ++ e /\ mt d2 /\ (forall a, In (Did a) e -> ~ is_metrics a) /\ metrics_of e = [] /\ lines_at Info e = pi_tail r).
    { intros d1 M N. exists d1, []. rewrite app_nil_r. split; [reflexivity|]. split; [exact M|]. split; [intros a0 []|]. split; [reflexivity|]. destruct r as [[]|m|]; [now elim N|reflexivity|reflexivity]. }
    unfold dnthen at 1, dquiet at 1, dgive at 1 in H. cbn [map] in H.
    destruct (match a with Ok is => rds_dbs is | Err m => Err (lit "failed to describe db instances: " ++ m) | Panic => Panic end) as [dbs|m|];
      [|injection H as <- _ <-; apply STOP; [exact DE|discriminate]|injection H as <- _ <-; apply STOP; [exact DE|discriminate]].
    unfold dnthen at 1, dquiet at 1, dgive at 1 in H. cbn [map] in H.
    match type of H with context [match ?m with Ok _ => _ | Err _ => _ | Panic => _ end] => destruct m as [start|m0|] end;
      [|injection H as <- _ <-; apply STOP; [exact DE|discriminate]|injection H as <- _ <-; apply STOP; [exact DE|discriminate]].
    unfold dnthen at 1 in H. destruct (all_loads_told sv vzero fmt dbs start w1) as [[d2 w2] r2] eqn:E2. apply all_mt in E2.
    assert (M2 : mt (de :: d2)) by (apply (mt_app [de] d2); assumption).
    destruct r2 as [b|m|]; [|injection H as <- _ <-; apply STOP; [exact M2|discriminate]|injection H as <- _ <-; apply STOP; [exact M2|discriminate]].
    destruct (convert_loads vadd vlt 171 start (tadd start week) (fst b)) as [rows|];
      [|cbn [dquiet dgive map app] in H; rewrite app_nil_r in H; injection H as <- _ <-; apply STOP; [exact M2|discriminate]].
    destruct (convert_loads vadd vlt 171 start (tadd start week) (snd b)) as [trows|];
      [|cbn [dquiet dgive map app] in H; rewrite app_nil_r in H; injection H as <- _ <-; apply STOP; [exact M2|discriminate]].
    unfold dnthen, dquiet, dgive, dsay, perform in H. destruct (sv w2 (GCreate output (BoPi (Some rows) (Some trows)))) as [w3 e] eqn:E3. cbn [map app] in H.
    exists (de :: d2), (Did (DigProgram.said (GCreate output (BoPi (Some rows) (Some trows))) e) :: map (Said Info) (pi_tail r)).
    assert (T : forall y ls, metrics_of (Did (DigProgram.said (GCreate output (BoPi (Some rows) (Some trows))) y) :: map (Said Info) ls) = []).
    { intros y ls. unfold metrics_of. cbn [acts]. rewrite said_acts. reflexivity. }
    split; [|split; [exact M2|split; [|split; [apply T|]]]].
    - unfold failed_with in H. destruct e as [m|]; injection H as <- _ <-; [reflexivity|]. cbn [app]. do 3 f_equal. unfold pi_tail, output_lines. destruct (logged_output wd output); reflexivity.
    - intros a0 [K|K]; [|exact (calm_said _ _ is_metrics a0 K)]. injection K as <-. intros (rq & y & Q). apply (f_equal (@projT1 _ _)) in Q. discriminate.
    - unfold lines_at. cbn [Diary.said]. apply lines_said. }
  destruct P as (d1 & e & -> & [M1 M2] & C & F & L). exists (pi_tail r). split; [|split; [|split]].
  - intros N. pose proof (DiaryProperties.end_lines_told wd output r) as K. unfold DiaryProperties.end_lines in K. unfold pi_tail. destruct r as [u|m|]; try exact K. now destruct output.
  - intros N. destruct r as [[]|m|]; [now elim N|reflexivity|reflexivity].
  - now rewrite lines_app, metrics_app, F, app_nil_r, M1, L.
  - intros p rq x rest E. destruct (adj_app is_metrics metrics_before d1 e M2 (adj_calm _ _ _ C) p (DigProgram.said (GMetrics rq) x) rest E) as (p' & e' & K1 & (rq' & x' & K2 & K3)); [now exists rq, x|].
    apply (f_equal (@projT1 _ _)) in K2. cbn in K2. injection K2 as <-. exists p', e'. auto.
Qed.
End Insights.

(** ** The answers of Jaeger *)
Lemma receive_all : forall C (answers : list (recv C)) acc l, receive answers acc = Some (Ok l) <-> exists got rest, answers = map Chunk got ++ End :: rest /\ l = acc ++ got.
Proof.
  intros C. induction answers as [|[c| |m] answers IH]; intros acc l; cbn [receive].
  - split; [discriminate|]. intros (got & rest & H & _). now destruct got.
  - rewrite IH. split; intros (got & rest & H & ->).
    + exists (c :: got), rest. subst answers. split; [reflexivity|]. now rewrite <- app_assoc.
    + destruct got as [|c' got]; [discriminate|]. injection H as <- ->. exists got, rest. split; [reflexivity|]. now rewrite <- app_assoc.
  - split.
    + intros H. injection H as <-. exists [], answers. split; [reflexivity|now rewrite app_nil_r].
    + intros (got & rest & H & ->). destruct got; [|discriminate]. now rewrite app_nil_r.
  - split; [discriminate|]. intros (got & rest & H & _). now destruct got.
Qed.
Lemma receive_broken : forall C (answers : list (recv C)) acc m, receive answers acc = Some (Err m) <->
    exists got e rest, answers = map Chunk got ++ Broken e :: rest /\ m = of_string "failed to receive result to find traces: " ++ e.
Proof.
  intros C. induction answers as [|[c| |e] answers IH]; intros acc m; cbn [receive].
  - split; [discriminate|]. intros (got & e & rest & H & _). now destruct got.
  - rewrite IH. split; intros (got & e & rest & H & ->).
    + exists (c :: got), e, rest. subst answers. split; reflexivity.
    + destruct got as [|c' got]; [discriminate|]. injection H as <- ->. now exists got, e, rest.
  - split; [discriminate|]. intros (got & e & rest & H & _). now destruct got.
  - split.
    + intros H. injection H as <-. exists [], e, answers. split; reflexivity.
    + intros (got & e' & rest & H & ->). destruct got; [|discriminate]. now injection H as <- _.
Qed.
(** Traces are given to the caller only when the stream ended well, and then all of them in
    the order of arrival: no cut off answer is taken for a whole one. *)
Theorem stream_whole : forall C call (answers : list (recv C)),
    (forall l, find_traces call answers = Some (Ok l) <-> call = None /\ exists rest, answers = map Chunk l ++ End :: rest) /\
    (forall m, find_traces call answers = Some (Err m) <->
       (exists e, call = Some e /\ m = of_string "failed to find traces: " ++ e) \/
       (call = None /\ exists l e rest, answers = map Chunk l ++ Broken e :: rest /\ m = of_string "failed to receive result to find traces: " ++ e)) /\
    find_traces call answers <> Some Panic /\
    (find_traces call answers = None <-> call = None /\ exists l, answers = map Chunk l).
Proof.
  intros C call answers. unfold find_traces. destruct call as [e|].
  - split; [|split; [|split; [discriminate|]]].
    + intros l. split; [discriminate|]. intros [H _]. discriminate.
    + intros m. split.
      * intros H. injection H as <-. left. exists e. split; reflexivity.
      * intros [(e' & H & ->)|[H _]]; [|discriminate]. now injection H as <-.
    + split; [discriminate|]. intros [H _]. discriminate.
  - split; [|split; [|split]].
    + intros l. rewrite receive_all. split.
      * intros (got & rest & H & ->). split; [reflexivity|]. now exists rest.
      * intros (_ & rest & H). exists l, rest. split; [exact H|reflexivity].
    + intros m. rewrite receive_broken. split.
      * intros (got & e & rest & H). right. split; [reflexivity|]. now exists got, e, rest.
      * intros [(e & H & _)|[_ H]]; [discriminate|exact H].
    + generalize (@nil C). induction answers as [|[c| |m] answers IH]; intros acc; cbn [receive]; try discriminate. apply IH.
    + generalize (@nil C). induction answers as [|[c| |m] answers IH]; intros acc; cbn [receive].
      * split; [|reflexivity]. intros _. split; [reflexivity|]. now exists [].
      * rewrite IH. split; intros (_ & l & H); (split; [reflexivity|]).
        -- exists (c :: l). now rewrite H.
        -- destruct l as [|c' l]; [discriminate|]. injection H as _ ->. now exists l.
      * split; [discriminate|]. intros (_ & l & H). now destruct l.
      * split; [discriminate|]. intros (_ & l & H). now destruct l.
Qed.
