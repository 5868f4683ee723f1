(** C110-C112: the Jaeger dig command from start to page. *)
From Coq Require Import String List NArith ZArith QArith Bool Lia Arith Permutation.
From Verif Require Import Base IndexBuild ExplainTree ExplainSpec ExplainTreeProofs Lib LibProofs LibProperties
  Otel OtelSpec OtelProofs OtelForestProofs OtelCompactProofs OtelTimeProofs OtelFetchProofs OtelProperties
  Pi HandOver ProgramSpec DigProgram DigProgramSpec.
From Verif Require ConnText LoadChartsProofs.
Import ListNotations.
Local Open Scope string_scope.
Local Open Scope list_scope.
Local Open Scope nat_scope.

(** ** Every act is recorded with its answer *)
Section Chain.
Context {W : Type} (sv : services W).
Definition chained {A} (p : @dprog W A) : Prop := forall w tr w' r, p w = (tr, w', r) -> answered_by sv w tr w'.
Lemma answered_app : forall a b w w1 w2, answered_by sv w a w1 -> answered_by sv w1 b w2 -> answered_by sv w (a ++ b) w2.
Proof.
  induction a as [|[x y] a IH]; intros b w w1 w2 H1 H2; cbn [answered_by app] in *; [now subst w1|].
  destruct H1 as [E H1]. split; [exact E|]. eapply IH; eauto.
Qed.
Lemma chained_give : forall A (x : outcome A), chained (dgive x).
Proof. intros A x w tr w' r H. unfold dgive in H. injection H as <- <- _. reflexivity. Qed.
Lemma chained_then : forall A B (p : dprog A) (f : A -> dprog B), chained p -> (forall x, chained (f x)) -> chained (dthen p f).
Proof.
  intros A B p f HP HF w tr w' r H. unfold dthen in H. destruct (p w) as [[tr1 w1] r1] eqn:E1. pose proof (HP _ _ _ _ E1) as H1.
  destruct r1 as [x|m|]; [|now injection H as <- <- _|now injection H as <- <- _].
  destruct (f x w1) as [[tr2 w2] r2] eqn:E2. injection H as <- <- _. eapply answered_app; [exact H1|]. eapply HF; eauto.
Qed.
Lemma chained_perform : forall a, chained (perform sv a).
Proof.
  intros a w tr w' r H. unfold perform in H. destruct (sv w a) as [w1 x] eqn:E. injection H as <- <- _.
  cbn [answered_by said]. rewrite E. split; reflexivity.
Qed.
End Chain.

Section Jaeger.
Context {W : Type} (sv : services W)
  (ords : nat -> nat -> list bytes -> list bytes) (srt : list (tree node) -> list (tree node))
  (ordc : list (gostring * Z) -> list (gostring * Z))
  (ordv ordt : nat -> list (gostring * Z) -> list (gostring * Z)) (srtt : list (Z * Z) -> list (Z * Z))
  (parse_time : gostring -> outcome Z) (env : gostring -> gostring) (now : Z) (fl : jaeger_flags).
Notation main := (jaeger_main sv ords srt ordc ordv ordt srtt parse_time env now fl).

Lemma fetch_chained : forall size dur times j, chained sv (fetch_all sv ords srt fl size dur j times).
Proof.
  induction times as [|s times IH]; intros j; cbn [fetch_all]; [apply chained_give|].
  apply chained_then; [apply chained_perform|]. intros a. apply chained_then; [apply chained_give|]. intros cs.
  apply chained_then; [apply IH|]. intros r. apply chained_give.
Qed.
Lemma jaeger_chained : chained sv main.
Proof.
  unfold jaeger_main. apply chained_then; [apply chained_give|]. intros p. unfold jaeger_run.
  apply chained_then; [apply chained_perform|]. intros e. destruct e as [m|]; [apply chained_give|].
  intros w tr w' r H. assert (HD : chained sv (jaeger_dig sv ords srt ordc ordv ordt srtt fl (fst (snd p)) (fst (fst p)) (snd (fst p)))).
  { unfold jaeger_dig. destruct (generate_time_ranges _ _ _ _) as [times|]; [|apply chained_give].
    apply chained_then; [apply fetch_chained|]. intros traces. apply chained_then; [apply chained_give|]. intros slow.
    cbv zeta. destruct (jf_output fl) as [|c o]; [apply chained_give|]. apply chained_then; [apply chained_perform|]. intros e. apply chained_give. }
  destruct (jaeger_dig _ _ _ _ _ _ _ _ _ _ _ w) as [[tr1 w1] r1] eqn:E1. destruct (sv w1 GHangUp) as [w2 x] eqn:E2.
  injection H as <- <- _. eapply answered_app; [eapply HD; eauto|]. cbn [answered_by said]. rewrite E2. split; reflexivity.
Qed.

(** ** The time *)
Lemma ranges_enough : forall n s e, (e <= s + Z.of_nat n * half_hour)%Z -> exists l, generate_time_ranges n s e half_hour = Some l /\
    (forall i, i < length l <-> (s + Z.of_nat i * half_hour < e)%Z) /\
    (forall i t, nth_error l i = Some t -> t = (s + Z.of_nat i * half_hour)%Z).
Proof.
  unfold half_hour. induction n as [|n IH]; intros s e H.
  - cbn [generate_time_ranges]. destruct (Z.ltb_spec s e); [lia|]. exists []. split; [reflexivity|]. split.
    + intros i. simpl. lia.
    + intros [|i] t E; discriminate.
  - cbn [generate_time_ranges]. destruct (Z.ltb_spec s e) as [K|K].
    + destruct (IH (s + 1800000000000)%Z e ltac:(lia)) as (l & E & H1 & H2). rewrite E. exists (s :: l). split; [reflexivity|]. split.
      * intros [|i]; cbn [length]; [lia|]. specialize (H1 i). lia.
      * intros [|i] t Et; cbn in Et; [injection Et as <-; lia|]. apply H2 in Et. lia.
    + exists []. split; [reflexivity|]. split; [|intros [|i] t Et; discriminate]. intros i. simpl. lia.
Qed.
Lemma prepare_spec : match jaeger_prepare parse_time env now fl with
    | Ok ((s, e), (ui, address)) => ~ unusable parse_time env fl /\ time_span parse_time now fl s e /\
        ui = env (lit "JAEGER_UI_URL") /\ address = env (lit "JAEGER_GRPC_ADDRESS")
    | _ => unusable parse_time env fl
    end.
Proof.
  unfold jaeger_prepare, ConnText.get_env, unusable, time_span, dig_span, day.
  set (u := lit "JAEGER_UI_URL"). set (a := lit "JAEGER_GRPC_ADDRESS"). clearbody u a.
  destruct (jf_start fl) as [|c st] eqn:ES; [|destruct (parse_time (c :: st)) as [t|m|] eqn:EP]; cbn [obind];
    try (left; split; [discriminate|intros x; discriminate]);
    (destruct (env u) as [|c1 s1] eqn:EU; cbn [obind]; [right; left; reflexivity|]);
    (destruct (env a) as [|c2 s2] eqn:EA; cbn [obind]; [right; right; reflexivity|]).
  - split; [|split; [|split; reflexivity]].
    + intros [[K _]|[K|K]]; [now apply K|discriminate|discriminate].
    + split; [left; split; reflexivity|]. destruct (Z.ltb_spec now (now - 86400000000000 + 86400000000000)); lia.
  - split; [|split; [|split; reflexivity]].
    + intros [[_ K]|[K|K]]; [now apply (K t)|discriminate|discriminate].
    + split; [right; split; [discriminate|reflexivity]|]. destruct (Z.ltb_spec now (t + 86400000000000)); lia.
Qed.

(** ** The questions *)
Context (HC : (- 2 ^ 31 <= jf_count fl < 2 ^ 31)%Z) (HM : (- 9223372036854 <= jf_millis fl <= 9223372036854)%Z).
Lemma question : forall s i, asks_half_hour fl s i (query_at (i32 (jf_count fl)) (jf_service fl) (millis (jf_millis fl)) (s + Z.of_nat i * half_hour)).
Proof.
  intros s i. unfold asks_half_hour, query_at. cbn [q_service q_num q_min q_max q_duration]. split; [reflexivity|].
  split. { unfold i32. rewrite Z.mod_small by lia. lia. }
  unfold unix, half_hour, second. pose proof (Z.div_mod (s + Z.of_nat i * 1800000000000) 1000000000 ltac:(lia)).
  pose proof (Z.mod_pos_bound (s + Z.of_nat i * 1800000000000) 1000000000 ltac:(lia)).
  split; [lia|]. split.
  { replace (s + Z.of_nat i * 1800000000000 + 1800000000000)%Z with (s + Z.of_nat i * 1800000000000 + 1800 * 1000000000)%Z by lia. rewrite Z.div_add by lia. reflexivity. }
  rewrite milliseconds_exact by exact HM.
  pose proof (duration_filter_exact (jf_millis fl * 1000000) ltac:(lia)) as K. destruct (to_proto_duration (jf_millis fl * 1000000)) as [secs nanos].
  cbn [fst snd]. destruct K as (K1 & K2 & _). split; [exact K1|lia].
Qed.

(** ** The answers *)
Context (Ho : forall i k, any_order (ords i k)) (Hs : is_sort start_less srt).
Lemma compacted_or_not : forall ord traces, (forall k, any_order (ord k)) -> match find_compacted ord srt 0 traces with
    | Ok cs => Forall complete_input traces /\ trees_of traces cs
    | Err _ => False
    | Panic => ~ Forall complete_input traces
    end.
Proof.
  intros ord traces Hk. pose proof (traces_compacted ord srt traces Hk Hs) as H. destruct (find_compacted ord srt 0 traces) as [cs|e|]; auto.
  destruct H as (HF & tss & HL & HT & HCo). split; [exact HF|]. exists tss. split; [|exact HCo].
  clear HCo HF. revert ord Hk tss HL HT. induction traces as [|tr traces IH]; intros ord Hk tss HL HT.
  - destruct tss; [constructor|discriminate].
  - destruct tss as [|ts tss]; [discriminate|]. constructor.
    + pose proof (HT 0 tr ts eq_refl eq_refl) as K. pose proof (spans_form_forest (ord 0) srt tr (Hk 0) Hs) as F. rewrite K in F. unfold forest_of. tauto.
    + apply (IH (fun k => ord (S k))); [auto|injection HL; auto|]. intros i x y Ex Ey. exact (HT (S i) x y Ex Ey).
Qed.
Lemma trees_app : forall a b x y, trees_of a x -> trees_of b y -> trees_of (a ++ b) (x ++ y).
Proof.
  intros a b x y (ta & A1 & A2) (tb & B1 & B2). exists (ta ++ tb). split; [now apply Forall2_app|]. rewrite concat_app. now apply Forall2_app.
Qed.
Lemma trees_nil : trees_of [] [].
Proof. exists []. split; constructor. Qed.
Lemma fetch_talk : forall size dur times j w tr w' r, fetch_all sv ords srt fl size dur j times w = (tr, w', r) ->
    (exists l cs, tr = finds l /\ map fst l = map (query_at size (jf_service fl) dur) times /\
       Forall (fun p => readable (snd p)) l /\ trees_of (received l) cs /\ r = Ok cs) \/
    (exists l q a k, tr = finds (l ++ [(q, a)]) /\ map fst (l ++ [(q, a)]) = map (query_at size (jf_service fl) dur) (firstn k times) /\ k <= length times /\
       Forall (fun p => readable (snd p)) l /\ ~ readable a /\ r = match a with Err m => Err m | _ => Panic end).
Proof.
  intros size dur times. induction times as [|s times IH]; intros j w tr w' r H; cbn [fetch_all] in H.
  - unfold dgive in H. injection H as <- _ <-. left. exists [], []. split; [reflexivity|]. split; [reflexivity|]. split; [constructor|]. split; [apply trees_nil|reflexivity].
  - unfold dthen at 1 in H. unfold perform in H. remember (query_at size (jf_service fl) dur s) as q eqn:Eq. destruct (sv w (GFind q)) as [w1 a] eqn:E1.
    unfold dthen at 1, dgive in H. destruct a as [traces|m|]; cbn [obind] in H.
    + pose proof (compacted_or_not (ords j) traces (Ho j)) as K. destruct (find_compacted (ords j) srt 0 traces) as [cs|m|].
      * unfold dthen at 1 in H. destruct (fetch_all sv ords srt fl size dur (S j) times w1) as [[tr2 w2] r2] eqn:E2.
        destruct K as [KC KT]. destruct (IH _ _ _ _ _ E2) as [(l & cs2 & -> & L1 & L2 & L3 & ->)|(l & q2 & a2 & k & -> & L1 & L2 & L3 & L4 & ->)].
        -- injection H as <- _ <-. left. exists ((q, Ok traces) :: l), (cs ++ cs2). rewrite app_nil_r. split; [reflexivity|].
           split; [cbn [map fst]; rewrite L1, Eq; reflexivity|].
           split; [constructor; [exists traces; split; [reflexivity|exact KC]|exact L2]|]. split; [|reflexivity].
           unfold received. cbn [flat_map snd]. apply trees_app; assumption.
        -- right. exists ((q, Ok traces) :: l), q2, a2, (S k). destruct a2 as [tx|m|]; injection H as <- _ <-; (split; [reflexivity|]);
             (split; [cbn [app map fst firstn]; rewrite Eq; f_equal; exact L1|]); (split; [simpl; lia|]);
             (split; [constructor; [exists traces; split; [reflexivity|exact KC]|exact L3]|]); (split; [exact L4|reflexivity]).
      * contradiction.
      * injection H as <- _ <-. right. exists [], q, (Ok traces), 1. split; [reflexivity|]. split; [cbn; now rewrite Eq|]. split; [simpl; lia|].
        split; [constructor|]. split; [|reflexivity]. intros (tx & Et & F). injection Et as <-. contradiction.
    + injection H as <- _ <-. right. exists [], q, (Err m), 1. split; [reflexivity|]. split; [cbn; now rewrite Eq|]. split; [simpl; lia|].
      split; [constructor|]. split; [|reflexivity]. intros (tx & Et & F). discriminate.
    + injection H as <- _ <-. right. exists [], q, Panic, 1. split; [reflexivity|]. split; [cbn; now rewrite Eq|]. split; [simpl; lia|].
      split; [constructor|]. split; [|reflexivity]. intros (tx & Et & F). discriminate.
Qed.

(** ** The report *)
Context (Hc : any_order ordc) (Hv : forall i, any_order (ordv i)) (Ht : forall i, any_order (ordt i)).
Lemma viewed_view : forall t, viewed t (to_view t).
Proof.
  apply tree_ind'. intros n cs IH. cbn [to_view]. destruct (view_fields (n_span n)) as (F1 & F2 & F3 & F4).
  constructor; auto. induction IH as [|c cs Hx _ IH2]; cbn [map]; constructor; auto.
Qed.
Lemma hex_digit_text : forall n, (n < 16)%N -> nth_error (lit "0123456789abcdef") (N.to_nat n) = Some (hex_digit n).
Proof.
  intros n H. assert (K : In (N.to_nat n) (seq 0 16)) by (apply in_seq; lia). rewrite <- (N2Nat.id n).
  remember (N.to_nat n) as k eqn:E. clear E H n. rewrite Nat2N.id. cbn in K. repeat (destruct K as [<-|K]; [reflexivity|]). destruct K.
Qed.
Lemma hex_reads : forall l, Forall (fun b => (b < 256)%N) l -> hex_text l (hex l).
Proof.
  induction l as [|b l IH]; intros H; [split; [reflexivity|intros [|i] b E; discriminate]|].
  inversion H as [|? ? Hb Hl]; subst. destruct (IH Hl) as [I1 I2]. unfold hex in *. cbn [flat_map app]. split; [cbn [length]; lia|].
  intros [|i] c E; cbn in E.
  - injection E as <-. exists (b / 16)%N, (b mod 16)%N, (hex_digit (b / 16)), (hex_digit (b mod 16)).
    pose proof (N.div_mod b 16 ltac:(lia)). pose proof (N.mod_upper_bound b 16 ltac:(lia)).
    assert (b / 16 < 16)%N by (apply N.div_lt_upper_bound; lia).
    split; [lia|]. split; [assumption|]. split; [assumption|]. split; [now apply hex_digit_text|]. split; [reflexivity|]. split; [now apply hex_digit_text|reflexivity].
  - destruct (I2 i c E) as (hi & lo & dhi & dlo & K1 & K2 & K3 & K4 & K5 & K6 & K7). exists hi, lo, dhi, dlo.
    split; [exact K1|]. split; [exact K2|]. split; [exact K3|]. split; [exact K4|]. replace (2 * S i) with (S (S (2 * i))) by lia.
    split; [exact K5|]. split; [exact K6|exact K7].
Qed.
Lemma views_viewed : forall l k, Forall2 (trace_viewed srtt) l (views ordv ordt srtt k l).
Proof.
  induction l as [|t l IH]; intros k; cbn [views]; constructor; [|apply IH].
  destruct (compact_view (ordv k) (ordt k) srtt t (Hv k) (Ht k)) as (V1 & V2 & V3 & V4 & V5).
  split; [intros Hb; rewrite V1; now apply hex_reads|]. split; [rewrite V2; apply viewed_view|]. split; [exact V3|]. split; [exact V4|exact V5].
Qed.
Lemma firstn_nth : forall A (l : list A) k i x, nth_error (firstn k l) i = Some x -> nth_error l i = Some x.
Proof. induction l as [|y l IH]; intros [|k] [|i] x H; try discriminate; [exact H|]. cbn in *. eapply IH; eauto. Qed.
Lemma times_asked : forall s e times (l : answers) k, (forall i t, nth_error times i = Some t -> t = (s + Z.of_nat i * half_hour)%Z) ->
    map fst l = map (query_at (i32 (jf_count fl)) (jf_service fl) (millis (jf_millis fl))) (firstn k times) ->
    (forall i, i < length times <-> (s + Z.of_nat i * half_hour < e)%Z) -> asked fl s l.
Proof.
  intros s e times l k HT HE _ i q a H. assert (K : nth_error (map fst l) i = Some q) by (rewrite nth_error_map, H; reflexivity).
  rewrite HE, nth_error_map in K. destruct (nth_error (firstn k times) i) as [t|] eqn:ET; [|discriminate]. injection K as <-.
  apply firstn_nth in ET. apply HT in ET. subst t. apply question.
Qed.

(** ** C110, C111 *)
Theorem jaeger_talks : forall w tr w' r, main w = (tr, w', r) ->
    answered_by sv w tr w' /\ jaeger_talk parse_time env now fl (jaeger_report srtt (env (lit "JAEGER_UI_URL")) fl) tr r.
Proof.
  intros w tr w' r H. split; [eapply jaeger_chained; eauto|]. unfold jaeger_main in H. unfold dthen at 1, dgive at 1 in H.
  pose proof prepare_spec as HP. destruct (jaeger_prepare parse_time env now fl) as [[[s e] [ui address]]|m|].
  2:{ injection H as <- _ <-. apply jt_refused; [exact HP|intros x; discriminate]. }
  2:{ injection H as <- _ <-. apply jt_refused; [exact HP|intros x; discriminate]. }
  destruct HP as (HU & HS & -> & ->). cbn [fst snd] in H. cbn [app] in H.
  destruct (jaeger_run sv ords srt ordc ordv ordt srtt fl (env (lit "JAEGER_GRPC_ADDRESS")) (env (lit "JAEGER_UI_URL")) s e w) as [[tr0 w0] r0] eqn:E0.
  injection H as <- <- <-. unfold jaeger_run in E0. unfold dthen at 1, perform in E0.
  destruct (sv w (GDial (env (lit "JAEGER_GRPC_ADDRESS")))) as [w1 [m|]] eqn:E1.
  { unfold dgive in E0. injection E0 as <- <- <-. apply jt_unreachable. exact HU. }
  destruct (jaeger_dig sv ords srt ordc ordv ordt srtt fl (env (lit "JAEGER_UI_URL")) s e w1) as [[tr2 w2] r2] eqn:E2.
  destruct (sv w2 GHangUp) as [w3 x]. injection E0 as <- <- <-. cbn [app]. unfold jaeger_dig in E2.
  destruct (ranges_enough 48 s e) as (times & ET & T1 & T2). { destruct HS as [_ ->]. unfold half_hour. lia. }
  rewrite ET in E2. unfold dthen at 1 in E2.
  destruct (fetch_all sv ords srt fl (i32 (jf_count fl)) (millis (jf_millis fl)) 0 times w1) as [[tr3 w3'] r3] eqn:E3.
  destruct (fetch_talk _ _ _ _ _ _ _ _ E3) as [(l & cs & -> & L1 & L2 & L3 & ->)|(l & q & a & k & -> & L1 & L2 & L3 & L4 & ->)].
  - destruct (slow_traces_are_slowest 100 cs) as (slow & others & P1 & P2 & P3 & P4 & P5). unfold dthen at 1, dgive at 1 in E2. rewrite P1 in E2. cbv zeta in E2.
    set (same := pick_same_service ordc (jf_threshold fl) cs) in E2. set (b := jaeger_html ordv ordt srtt fl (env (lit "JAEGER_UI_URL")) slow same) in E2.
    assert (EL : length l = length times) by (rewrite <- (map_length fst l), L1, map_length; reflexivity).
    assert (ended : exists end_, tr2 = finds l ++ end_ /\
       (jf_output fl = [] /\ end_ = [] /\ r2 = Ok tt \/
        jf_output fl <> [] /\ exists b m, jaeger_report srtt (env (lit "JAEGER_UI_URL")) fl (received l) b /\ end_ = [said (GCreate (jf_output fl) b) m] /\
         r2 = match m with None => Ok tt | Some m => Err m end)).
    { destruct (jf_output fl) as [|c o] eqn:EO.
      - injection E2 as <- _ <-. exists []. split; [reflexivity|]. left. split; [reflexivity|split; reflexivity].
      - unfold dthen, perform, dgive in E2. destruct (sv w3' (GCreate (c :: o) b)) as [w4 m] eqn:E4. cbn [app] in E2. injection E2 as <- _ <-.
        exists [said (GCreate (c :: o) b) m]. split; [reflexivity|]. right. split; [discriminate|]. exists b, m. split; [|split; [reflexivity|destruct m; reflexivity]].
        subst b. unfold jaeger_html. exists cs, slow, others, same. eexists. split; [exact L3|]. split; [exact P2|]. split; [lia|].
        split. { intros i j p p' Hij Hp Hp'. pose proof (LoadChartsProofs.sorted_nth _ _ _ P4 i j p p' Hij Hp Hp') as K. cbn in K. apply Z.ltb_ge in K. exact K. }
        split; [exact P5|]. split; [now apply same_service_traces|]. split; [reflexivity|]. cbn [jd_ui jd_slow_ms jd_same jd_slow jd_same_service].
        split; [reflexivity|]. split; [reflexivity|]. split; [reflexivity|]. split; apply views_viewed. }
    destruct ended as (end_ & -> & HE). rewrite <- app_assoc. apply (jt_done _ _ _ _ _ s e l x end_ r2); try assumption.
    + apply (times_asked s e times l (length times)); [exact T2|now rewrite firstn_all|exact T1].
    + intros i. rewrite EL. unfold half_hour in T1. apply T1.
  - assert (EL : length l < length times).
    { apply (f_equal (@length _)) in L1. rewrite !map_length, app_length, firstn_length in L1. simpl in L1. lia. }
    assert (HX : tr2 = finds (l ++ [(q, a)]) /\ r2 = match a with Err m => Err m | _ => Panic end).
    { destruct a as [tx|m|]; injection E2 as <- _ <-; split; reflexivity. }
    destruct HX as [-> ->]. apply (jt_broken _ _ _ _ _ s e l q a x); try assumption; [| |reflexivity].
    + apply (times_asked s e times _ k); assumption.
    + apply T1 in EL. exact EL.
Qed.
End Jaeger.
Print Assumptions jaeger_talks.
