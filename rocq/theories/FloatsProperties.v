(** C145: what is told of times is right although it is computed with float64.  C146: the
    loads and their ranking. *)
From Coq Require Import String List NArith ZArith QArith Qpower Qround Qabs Bool Lia Arith Lqa Permutation.
From Verif Require Import Base Dec ExplainTree MysqlExplain IndexBuild Pi LoadCharts LoadChartsSpec LoadChartsProofs Floats FloatsSpec FloatsProofs FloatTimes FloatTimesProofs FloatLoadsSpec FloatLoadsProofs.
From Verif Require DiarySpec DiaryProperties LoadChartsProperties.
Import ListNotations.
Local Open Scope Q_scope.

(** ** C145 *)
(** [fl] rounds as binary64 does: the result is a number of the format, none is nearer, and
    with two as near it is the one with an even last place. *)
Theorem fl_rounds : rounding fl /\
  (forall s, Qabs (s - inject_Z (round_even s)) <= 1 # 2 /\ (Qabs (s - inject_Z (round_even s)) == 1 # 2 -> Z.even (round_even s) = true)) /\
  (forall x f, nearest x f -> is_float x -> f == x) /\
  (forall x f, nearest x f -> moderate x -> Qpower (2 # 1) (-1022) <= Qabs x -> Qabs (f - x) <= Qpower (2 # 1) (-53) * Qabs x).
Proof.
  split; [exact fl_rounding|]. split; [|split].
  - intros s. split; [apply round_even_half|]. destruct (floor_bounds s) as [F1 F2]. unfold round_even.
    destruct (Qcompare (s - inject_Z (Qfloor s)) (1 # 2)) eqn:C.
    + intros _. destruct (Z.even (Qfloor s)) eqn:E; [exact E|]. rewrite Z.even_add, E. reflexivity.
    + apply Qlt_alt in C. rewrite Qabs_pos by lra. intros K. lra.
    + apply Qgt_alt in C. rewrite inject_Z_plus. change (inject_Z 1) with 1. rewrite Qabs_neg by lra. intros K. lra.
  - intros x f H F. now apply nearest_exact.
  - intros x f H M L. apply error; [now left|exact M|exact H].
Qed.

Example fl_rounds_nonvacuous :
  Qred (fl (1 # 10)) = 3602879701896397 # 36028797018963968 /\ ~ fl (1 # 10) == 1 # 10 /\
  Qred (fl (fl (1 # 10) + fl (2 # 10))) = 1351079888211149 # 4503599627370496 /\
  fl (9007199254740993 # 1) == 9007199254740992 /\ fl (9007199254740995 # 1) == 9007199254740996 /\
  fl (- (1 # 3)) == - (6004799503160661 # 18014398509481984) /\ fl (Qpower (2 # 1) (-1075)) == 0 /\ fl (3 * Qpower (2 # 1) (-1075)) == Qpower (2 # 1) (-1073) /\
  moderate (1 # 10) /\ Qpower (2 # 1) (-1022) <= Qabs (1 # 10).
Proof.
  split; [vm_compute; reflexivity|]. split; [vm_compute; discriminate|]. split; [vm_compute; reflexivity|]. split; [vm_compute; reflexivity|].
  split; [vm_compute; reflexivity|]. split; [vm_compute; reflexivity|]. split; [vm_compute; reflexivity|]. split; [vm_compute; reflexivity|]. split; vm_compute; discriminate.
Qed.

(** The total time of a line is right up to a factor 1 + 2^-51, and two times that differ by
    more than a factor 1 + 2^-49 are never confused. *)
Theorem total_time_float : forall rnd l, rounding rnd -> readable_time l ->
  Qabs (f_total_time rnd l - total_time l) <= Qpower (2 # 1) (-51) * total_time l /\
  forall l', readable_time l' -> total_time l * (1 + Qpower (2 # 1) (-49)) < total_time l' -> f_total_time rnd l < f_total_time rnd l'.
Proof.
  intros rnd l RND H. pose proof (total_time_error rnd RND l H) as E. split; [exact E|]. intros l' H' L. pose proof (total_time_error rnd RND l' H') as E'.
  change (two (-51)) with (1 # 2251799813685248) in E, E'. change (two (-49)) with (1 # 562949953421312) in L. apply abs_bounds in E, E'.
  assert (0 <= total_time l) as P.
  { destruct (Qlt_le_dec (total_time l) 0) as [C|C]; [|exact C]. exfalso. lra. }
  assert (0 <= total_time l') as P' by lra. lra.
Qed.

Definition ex_line (avg : Q) (loops : Z) : result_line :=
  {| rl_text := lit "-> Table scan on users"; rl_table := lit "users"; rl_init_cost := None; rl_cost := None; rl_rows := None;
     rl_time_first := None; rl_time_avg := Some avg; rl_returned := None; rl_loops := Some loops |}.
Example total_time_float_nonvacuous :
  readable_time (ex_line (1 # 10) 3) /\ readable_time (ex_line 0 5000) /\ readable_time (ex_line (31 # 100) 1) /\
  Qred (f_total_time fl (ex_line (1 # 10) 3)) = 1351079888211149 # 4503599627370496 /\ ~ f_total_time fl (ex_line (1 # 10) 3) == total_time (ex_line (1 # 10) 3) /\
  f_total_time fl (ex_line 0 5000) == 1 # 2 /\
  total_time (ex_line (1 # 10) 3) * (1 + Qpower (2 # 1) (-49)) < total_time (ex_line (31 # 100) 1).
Proof.
  split; [split; [right; split; vm_compute; discriminate|cbn; lia]|]. split; [split; [left; reflexivity|cbn; lia]|]. split; [split; [right; split; vm_compute; discriminate|cbn; lia]|].
  split; [vm_compute; reflexivity|]. split; [vm_compute; discriminate|]. split; [vm_compute; reflexivity|]. vm_compute. reflexivity.
Qed.

(** The saving printed in the log and the one shown on the page are the nearest numbers
    with one and two places to the exact percentage: computing it with float64 changes
    nothing, for times that are together less than thirty (three) years. *)
Theorem percent_float : forall rnd t o, rounding rnd -> (0 <= t)%Z -> (0 <= o)%Z ->
  ((t + o <= 1000000000000)%Z -> DiarySpec.percent t o (f_reduced_text rnd t o)) /\
  ((0 < o)%Z -> (t + o <= 100000000000)%Z -> (0 <= f_reduction rnd t o <-> (t <= o)%Z) /\
    forall n, Qabs (Qabs (f_reduction rnd t o) * 100 - inject_Z n) <= 1 # 2 -> (2 * Z.abs (n * o - 10000 * Z.abs (o - t)) <= o)%Z).
Proof.
  intros rnd t o RND T O. split; [intros S; now apply DiaryProperties.reduced_percent|]. intros O' S.
  destruct (reduction_error rnd RND t o T O' ltac:(lia)) as [E SG]. split; [exact SG|]. intros n N.
  destruct (places_near (f_reduction rnd t o) o (100 * (o - t)) 100 n O' eq_refl) as [_ K]; [|exact N|lia].
  rewrite inject_Z_mult. unfold Z.sub. rewrite inject_Z_plus, inject_Z_opp. eapply Qle_lt_trans; [apply Qmult_le_l; [reflexivity|exact E]|].
  apply inject_le in S. change (inject_Z 100000000000) with 100000000000 in S. change (inject_Z 100) with 100. lra.
Qed.
Example percent_float_nonvacuous :
  f_reduced_text fl 3 16 = lit "81.2" /\ f_reduced_text fl 1 3 = lit "66.7" /\ f_reduced_text fl 20 16 = lit "-25.0" /\
  Qabs (Qabs (f_reduction fl 1 3) * 100 - inject_Z 6667) <= 1 # 2 /\ ~ f_reduction fl 1 3 == 200 # 3.
Proof.
  split; [vm_compute; reflexivity|]. split; [vm_compute; reflexivity|]. split; [vm_compute; reflexivity|]. split; vm_compute; discriminate.
Qed.
(** But the last place of a percentage just between two numbers depends on the rounding. *)
Theorem percent_half_refuted : ~ (forall t o s, (0 < t < o)%Z -> (o < 10000)%Z -> DiarySpec.percent t o s -> s = f_reduced_text fl t o).
Proof.
  intros H. specialize (H 3%Z 16%Z (lit "81.3") ltac:(lia) ltac:(lia)). assert (lit "81.3" = f_reduced_text fl 3 16) as K.
  { apply H. right. right. split; [lia|]. exists 3%N. split; [lia|]. exists 81%N. split; [reflexivity|]. vm_compute. discriminate. }
  vm_compute in K. discriminate.
Qed.

(** ** C146 *)
(** The table of loads: the same rows, databases, SQLs, ids and largest loads as with exact
    numbers; a sum of loads is right up to twice the number of samples times 2^-53. *)
Theorem loads_float : forall rnd fuel start end_ avgs, rounding rnd ->
  let vs := map s_value (samples_of avgs) in plain_values vs -> (Z.of_nat (length vs) <= 2 ^ 50)%Z ->
  match f_rows rnd fuel start end_ avgs, convert_loads Qplus qlt fuel start end_ avgs with
  | Some r, Some r' => Forall2 (near_row (2 * length vs)) r r'
  | None, None => True
  | _, _ => False
  end.
Proof. intros rnd fuel start end_ avgs RND vs V F. now apply rows_near. Qed.

Definition ex_favg (sql tok : string) (vs : list Q) : @load_avg Q :=
  {| la_db := lit "a"; la_sql := lit sql; la_tok := lit tok; la_values := map (fun v => (v, {| t_ns := 360000000000000; t_loc := UTC |})) vs |}.
(** 0.1, 0.2 and 0.3 as float64; 1, three times a bit more than half of the last place of
    1; two last places more than 1 *)
Definition ex_favgs : list (@load_avg Q) :=
  [ ex_favg "SELECT 1" "t1" [3602879701896397 # 36028797018963968; 3602879701896397 # 18014398509481984; 5404319552844595 # 18014398509481984];
    ex_favg "SELECT 2" "t2" [1; 129 # 1152921504606846976; 129 # 1152921504606846976; 129 # 1152921504606846976];
    ex_favg "SELECT 3" "t3" [2251799813685249 # 2251799813685248] ].
Lemma some_float : forall m e v, (Z.abs m < 2 ^ 53)%Z -> (-1074 <= e <= 971)%Z -> Qeq_bool v (inject_Z m * Qpower (2 # 1) e) = true -> is_float v.
Proof. intros m e v H1 H2 H3. exists m, e. split; [exact H1|]. split; [exact H2|]. now apply Qeq_bool_iff. Qed.
Lemma ex_plain : plain_values (map s_value (samples_of ex_favgs)).
Proof.
  split; [|vm_compute; discriminate]. cbn [samples_of ex_favgs ex_favg flat_map map app la_values fst snd s_value].
  constructor; [split; [apply some_float with 3602879701896397%Z (-55)%Z; [lia|lia|reflexivity]|vm_compute; discriminate]|].
  constructor; [split; [apply some_float with 3602879701896397%Z (-54)%Z; [lia|lia|reflexivity]|vm_compute; discriminate]|].
  constructor; [split; [apply some_float with 5404319552844595%Z (-54)%Z; [lia|lia|reflexivity]|vm_compute; discriminate]|].
  constructor; [split; [apply some_float with 1%Z 0%Z; [lia|lia|reflexivity]|vm_compute; discriminate]|].
  constructor; [split; [apply some_float with 129%Z (-60)%Z; [lia|lia|reflexivity]|vm_compute; discriminate]|].
  constructor; [split; [apply some_float with 129%Z (-60)%Z; [lia|lia|reflexivity]|vm_compute; discriminate]|].
  constructor; [split; [apply some_float with 129%Z (-60)%Z; [lia|lia|reflexivity]|vm_compute; discriminate]|].
  constructor; [split; [apply some_float with 2251799813685249%Z (-51)%Z; [lia|lia|reflexivity]|vm_compute; discriminate]|constructor].
Qed.
Definition ex_start : gtime := {| t_ns := 360000000000000; t_loc := UTC |}.
Definition ex_frows : list row :=
  [ {| tl_time := ex_start; tl_dbs := [ {| dl_name := lit "a"; dl_sqls :=
       [ {| sl_sql := lit "SELECT 1"; sl_max := 5404319552844595 # 18014398509481984; sl_sum := 5404319552844596 # 9007199254740992; sl_tok := lit "t1" |};
         {| sl_sql := lit "SELECT 2"; sl_max := 1; sl_sum := 4503599627370499 # 4503599627370496; sl_tok := lit "t2" |};
         {| sl_sql := lit "SELECT 3"; sl_max := 2251799813685249 # 2251799813685248; sl_sum := 2251799813685249 # 2251799813685248; sl_tok := lit "t3" |} ] |} ] |} ].
Definition all_loads (rows : option (list row)) : list (gostring * (gostring * Q)) :=
  match rows with Some r => map (fun x => (fst x, (sl_sql (snd x), Qred (sl_sum (snd x))))) (table_loads r) | None => [] end.
Example loads_float_nonvacuous :
  plain_values (map s_value (samples_of ex_favgs)) /\ length (samples_of ex_favgs) = 8%nat /\
  all_loads (f_rows fl 5 ex_start ex_start ex_favgs) = all_loads (Some ex_frows) /\
  all_loads (convert_loads Qplus qlt 5 ex_start ex_start ex_favgs) =
    [ (lit "a", (lit "SELECT 1", 21617278211378381 # 36028797018963968)); (lit "a", (lit "SELECT 2", 1152921504606847363 # 1152921504606846976));
      (lit "a", (lit "SELECT 3", 2251799813685249 # 2251799813685248)) ].
Proof. split; [exact ex_plain|]. split; [reflexivity|]. split; vm_compute; reflexivity. Qed.

Lemma events_loads : forall targets rows, map snd (rank_events targets rows) = filter (fun x => includes targets (fst x)) (table_loads rows).
Proof.
  intros targets rows. unfold rank_events, table_loads. induction rows as [|r rows IH]; [reflexivity|]. cbn [flat_map]. rewrite map_app, filter_app, IH. f_equal.
  induction (tl_dbs r) as [|d ds IHd]; [reflexivity|]. cbn [flat_map]. rewrite map_app, filter_app, IHd. f_equal.
  destruct (includes targets (dl_name d)) eqn:E; induction (dl_sqls d) as [|l ls IHl]; cbn [map filter fst]; rewrite ?E; try reflexivity.
  - now rewrite IHl.
  - exact IHl.
Qed.
Lemma filter_sum : forall (f : gostring * load -> bool) l, Forall (fun v => is_float v /\ 0 <= v) (map (fun x => sl_sum (snd x)) l) ->
  fold_right Qplus 0 (map (fun x => sl_sum (snd x)) (filter f l)) <= fold_right Qplus 0 (map (fun x => sl_sum (snd x)) l) /\
  Forall (fun x => is_float (sl_sum (snd x)) /\ 0 <= sl_sum (snd x)) (filter f l) /\ (length (filter f l) <= length l)%nat.
Proof.
  intros f l H. apply Forall_map in H. induction H as [|x l [H1 H1'] H2 (I1 & I2 & I3)]; cbn [filter map fold_right length]; [split; [apply Qle_refl|split; [constructor|lia]]|].
  destruct (f x); cbn [map fold_right length]; (split; [lra|split; [|lia]]); [constructor; auto|exact I2].
Qed.

(** The ranking: each bar is as high as the sum of its loads, up to 2 n 2^-53 for n loads; a
    bar is before another only if its exact sum is as large up to that, and what is left out
    is not larger up to that. *)
Theorem ranking_float : forall rnd keys srt count targets rows, rounding rnd ->
  (forall l, Permutation (keys l) l) -> is_sort rank_less srt ->
  let sums := map (fun x => sl_sum (snd x)) (table_loads rows) in
  plain_values sums -> (Z.of_nat (length sums) <= 2 ^ 50)%Z ->
  let tol := inject_Z (2 * Z.of_nat (length sums)) * Qpower (2 # 1) (-53) in
  let out := f_ranking rnd keys srt count targets rows in
  NoDup (map (fun p => (rk_db p, rk_sql p)) out) /\
  (forall p, In p out -> In (rk_db p) targets /\ occurs_in rows (rk_db p) (rk_sql p) /\
     forall q, total_load (rk_db p) (rk_sql p) (table_loads rows) q -> Qabs (rk_percent p - 100 * q) <= tol * (100 * q)) /\
  (forall i j a b qa qb, (i < j)%nat -> nth_error out i = Some a -> nth_error out j = Some b ->
     total_load (rk_db a) (rk_sql a) (table_loads rows) qa -> total_load (rk_db b) (rk_sql b) (table_loads rows) qb ->
     (1 - tol) * qb <= (1 + tol) * qa) /\
  (forall db sql, In db targets -> occurs_in rows db sql ->
     In (db, sql) (map (fun p => (rk_db p, rk_sql p)) out) \/
     (length out = count /\ forall p q q', In p out -> total_load (rk_db p) (rk_sql p) (table_loads rows) q -> total_load db sql (table_loads rows) q' ->
        (1 - tol) * q' <= (1 + tol) * q)).
Proof.
  intros rnd keys srt count targets rows RND HK HS sums [PV PT] FEW tol out.
  destruct (filter_sum (fun x => includes targets (fst x)) _ PV) as (S1 & S2 & S3). rewrite <- events_loads in S1, S2, S3.
  set (evs := rank_events targets rows) in *. rewrite map_length in S3. unfold sums in FEW. rewrite map_length in FEW.
  destruct (rank_sim rnd RND evs 0 0 [] []) as (T' & SIM).
  { unfold few. lia. }
  { apply Forall_map in S2. exact S2. }
  { apply Qle_refl. }
  { rewrite map_map in S1. change (fun x : row * (gostring * load) => sl_sum (snd (snd x))) with ev_sum in S1. fold sums in S1.
    assert (two 1008 == inject_Z (2 ^ 8) * two 1000) as TT by (rewrite <- (two_Z 8) by lia; rewrite <- two_plus; reflexivity). change (inject_Z (2 ^ 8)) with 256 in TT.
    pose proof (two_pos 1000) as TP. lra. }
  { constructor. }
  destruct (rank_inv evs) as [ND INV]. cbn [Nat.add] in SIM.
  set (ps' := fold_left rank_event evs []) in *. unfold out, f_ranking. rewrite f_rank_fold. fold evs. set (ps := fold_left (f_rank_event rnd) evs []) in *.
  assert (forall p, In p ps -> exists p', In p' ps' /\ rank_rel (length evs) T' p p') as REL.
  { clear -SIM. induction SIM as [|x y l l' H1 H2 IH]; intros p I; [contradiction|]. destruct I as [-> | I]; [exists y; split; [now left|exact H1]|]. destruct (IH p I) as (p' & J & K). exists p'. split; [now right|exact K]. }
  assert (forall p', In p' ps' -> exists p, In p ps /\ rank_rel (length evs) T' p p') as REL'.
  { clear -SIM. induction SIM as [|x y l l' H1 H2 IH]; intros p I; [contradiction|]. destruct I as [-> | I]; [exists x; split; [now left|exact H1]|]. destruct (IH p I) as (p' & J & K). exists p'. split; [now right|exact K]. }
  assert (NDp : NoDup (map rk_key ps)).
  { assert (map rk_key ps = map rk_key ps') as ->; [|exact ND]. clear -SIM. induction SIM as [|x y l l' H1 H2 IH]; [reflexivity|]. cbn [map]. rewrite IH. f_equal. destruct H1 as (A & B & _). unfold rk_key. now rewrite A, B. }
  assert (ENT : forall p, In p ps' -> In (rk_db p) targets /\ exists l ls,
            map snd (filter (fun e => keq (ev_key e) (rk_key p)) (table_loads rows)) = l :: ls /\
            rk_tok p = sl_tok l /\ (rk_percent p == qsum (l :: ls) * 100)).
  { intros p Hp. specialize (INV (rk_key p)). rewrite (get_in rk_key _ _ ND Hp) in INV. destruct INV as (l & ls & E & T & Q0).
    unfold rk_key in E. unfold evs in E. rewrite loads_for_rows in E. destruct (includes targets (rk_db p)) eqn:EI; [|discriminate].
    apply includes_in in EI. split; [exact EI|]. exists l, ls. auto. }
  assert (PCT : forall p q, In p ps' -> total_load (rk_db p) (rk_sql p) (table_loads rows) q -> rk_percent p == 100 * q).
  { intros p q Hp Hq. apply total_qsum in Hq. destruct (ENT p Hp) as (_ & l & ls & E & _ & Q0). unfold rk_key in E.
    rewrite E in Hq. rewrite Q0, Hq. ring. }
  assert (0 <= tol) as TOL0 by (apply Qmult_le_0_compat; [apply (inject_le 0); lia|apply Qlt_le_weak, two_pos]).
  assert (NEAR : forall p q, In p ps -> total_load (rk_db p) (rk_sql p) (table_loads rows) q -> 0 <= q /\ Qabs (rk_percent p - 100 * q) <= tol * (100 * q)).
  { intros p q Hp Hq. destruct (REL p Hp) as (p' & Hp' & A & B & _ & _ & _ & NN & W & _ & _). rewrite A, B in Hq. pose proof (PCT p' q Hp' Hq) as E.
    rewrite E in NN. split; [lra|]. unfold within_eps in W. rewrite E in W. apply Qle_trans with (1 := W). apply Qmult_le_compat_r; [|lra].
    unfold tol. apply Qmult_le_compat_r; [|apply Qlt_le_weak, two_pos]. apply inject_le. unfold sums. rewrite map_length. lia. }
  assert (COMP : forall p p' q q', In p ps -> In p' ps -> rk_percent p' <= rk_percent p -> total_load (rk_db p) (rk_sql p) (table_loads rows) q ->
            total_load (rk_db p') (rk_sql p') (table_loads rows) q' -> (1 - tol) * q' <= (1 + tol) * q).
  { intros p p' q q' I I' L H H'. destruct (NEAR p q I H) as [P E]. destruct (NEAR p' q' I' H') as [P' E']. apply abs_bounds in E, E'. lra. }
  destruct (firstn_largest _ rk_percent srt count (keys ps) HS) as (HL & HO & rest & HP & HR).
  set (res := firstn count (srt (keys ps))) in *.
  assert (PP : Permutation (res ++ rest) ps) by (rewrite HP; apply HK).
  assert (RES : forall p, In p res -> In p ps) by (intros p Hp; eapply Permutation_in; [exact PP|]; apply in_or_app; auto).
  assert (ND2 : NoDup (map rk_key (res ++ rest))).
  { eapply Permutation_NoDup; [|exact NDp]. apply Permutation_map. now apply Permutation_sym. }
  split; [|split; [|split]].
  - rewrite map_app in ND2. apply NoDup_app_iff in ND2. apply ND2.
  - intros p Hp. destruct (REL p (RES p Hp)) as (p' & Hp' & A & B & _). destruct (ENT p' Hp') as (HT & l & ls & E & T & Q0). rewrite A, B. split; [exact HT|]. split.
    + assert (Hin : In l (map snd (filter (fun e => keq (ev_key e) (rk_key p')) (table_loads rows)))) by (rewrite E; now left).
      apply in_map_iff in Hin. destruct Hin as ([db l'] & E2 & Hin). cbn [snd] in E2. subst l'. apply filter_In in Hin.
      destruct Hin as [Hin K]. apply keq_eq in K. unfold ev_key, rk_key in K. cbn [fst snd] in K. injection K as -> K. exists l. auto.
    + intros q Hq. rewrite <- A, <- B in Hq. now apply NEAR; [apply RES|].
  - intros i j a b qa qb L I J HA HB. apply (COMP a b); try assumption.
    + apply RES. now apply nth_error_In with i.
    + apply RES. now apply nth_error_In with j.
    + now apply (HO i j).
  - intros db sql HT (l & Hl & HLs). specialize (INV (db, sql)).
    destruct (get rk_key ps' (db, sql)) as [p'|] eqn:G.
    + apply get_key in G. destruct G as [E Hp']. destruct (REL' p' Hp') as (p & Hp & A & B & _). assert (rk_key p = (db, sql)) as E' by (rewrite <- E; unfold rk_key; now rewrite A, B).
      pose proof Hp as Hps. apply (Permutation_in _ (Permutation_sym PP)) in Hp. apply in_app_or in Hp.
      destruct Hp as [Hp|Hp]; [left; rewrite <- E'; now apply (in_map rk_key)|]. right. split.
      * rewrite HL. apply Nat.min_l. destruct (Nat.le_gt_cases count (length (keys ps))) as [K|K]; [exact K|].
        exfalso. pose proof (Permutation_length HP) as LP. rewrite app_length, HL in LP.
        rewrite Nat.min_r in LP by lia. destruct rest; [easy|]. cbn [length] in LP. lia.
      * intros x q q' Hx Hq Hq'. pose proof (HR x p Hx Hp) as K. injection E' as <- <-. apply (COMP x p); try assumption. now apply RES.
    + exfalso. unfold evs in INV. rewrite loads_for_rows in INV. apply includes_in in HT. rewrite HT in INV.
      assert (Hin : In (db, l) (filter (fun e => keq (ev_key e) (db, sql)) (table_loads rows))).
      { apply filter_In. split; [exact Hl|]. apply keq_eq. unfold ev_key. cbn [fst snd]. congruence. }
      apply (in_map snd) in Hin. rewrite INV in Hin. exact Hin.
Qed.

Definition names (ps : list rank) : list gostring := map rk_sql ps.
Example ranking_float_nonvacuous :
  (forall l : list rank, Permutation ((fun x => x) l) l) /\ is_sort rank_less (LoadChartsProperties.sort_by rank_less) /\
  plain_values (map (fun x => sl_sum (snd x)) (table_loads ex_frows)) /\
  map (fun p => (rk_sql p, Qred (rk_percent p))) (f_ranking fl (fun x => x) (LoadChartsProperties.sort_by rank_less) 2 [lit "a"] ex_frows) =
    [ (lit "SELECT 2", 7036874417766405 # 70368744177664); (lit "SELECT 3", 7036874417766403 # 70368744177664) ].
Proof.
  split; [reflexivity|]. split; [apply LoadChartsProperties.q_desc_sort|]. split; [|vm_compute; reflexivity]. split; [|vm_compute; discriminate]. cbn [table_loads ex_frows flat_map map app tl_dbs dl_sqls sl_sum fst snd].
  constructor; [split; [apply some_float with 5404319552844596%Z (-53)%Z; [lia|lia|reflexivity]|vm_compute; discriminate]|].
  constructor; [split; [apply some_float with 4503599627370499%Z (-52)%Z; [lia|lia|reflexivity]|vm_compute; discriminate]|].
  constructor; [split; [apply some_float with 2251799813685249%Z (-51)%Z; [lia|lia|reflexivity]|vm_compute; discriminate]|constructor].
Qed.
(** Sums that are nearly equal can be shown in the wrong order: here SELECT 2 is first, and
    the samples of SELECT 3 add up to more. *)
Theorem ranking_exact_refuted : ~ (forall avgs rows rows' ps, plain_values (map s_value (samples_of avgs)) ->
  f_rows fl 5 ex_start ex_start avgs = Some rows -> convert_loads Qplus qlt 5 ex_start ex_start avgs = Some rows' ->
  ps = f_ranking fl (fun x => x) (LoadChartsProperties.sort_by rank_less) 2 [lit "a"] rows ->
  forall a b qa qb, nth_error ps 0 = Some a -> nth_error ps 1 = Some b ->
  total_load (rk_db a) (rk_sql a) (table_loads rows') qa -> total_load (rk_db b) (rk_sql b) (table_loads rows') qb -> qb <= qa).
Proof.
  intros H. destruct (f_rows fl 5 ex_start ex_start ex_favgs) as [rows|] eqn:E; [|vm_compute in E; discriminate].
  destruct (convert_loads Qplus qlt 5 ex_start ex_start ex_favgs) as [rows'|] eqn:E'; [|vm_compute in E'; discriminate].
  specialize (H ex_favgs rows rows' _ ex_plain E E' eq_refl). vm_compute in E, E'. injection E as <-. injection E' as <-.
  match type of H with forall a b qa qb, nth_error ?l 0 = _ -> _ => set (ps := l) in H end. vm_compute in ps.
  assert (forall qa qb, _ -> _ -> qb <= qa) as K by exact (fun qa qb => H _ _ qa qb eq_refl eq_refl). unfold ps in K. cbn [rk_db rk_sql] in K. clear H ps.
  assert (forall qa qb, qb <= qa -> ~ qa < qb) as L by (intros; lra). eapply L.
  - apply K; unfold table_loads; cbn [flat_map tl_dbs dl_sqls map app dl_name];
      repeat first [apply tl_same; [reflexivity|] | apply tl_other; [right; vm_compute; discriminate|] | apply tl_none; reflexivity].
  - vm_compute. reflexivity.
Qed.

Lemma loads_near : forall n rows rows', Forall2 (near_row n) rows rows' ->
  Forall2 (fun x x' : gostring * load => fst x = fst x' /\ near_load n (snd x) (snd x')) (table_loads rows) (table_loads rows').
Proof.
  intros n rows rows' H. unfold table_loads. induction H as [|r r' l l' [_ H1] H2 IH]; [constructor|]. cbn [flat_map]. apply Forall2_app; [|exact IH].
  induction H1 as [|d d' ds ds' [E H1] H3 IHd]; [constructor|]. cbn [flat_map]. apply Forall2_app; [|exact IHd]. rewrite E. clear -H1.
  induction H1 as [|x x' ls ls' H H1 IH]; cbn [map]; constructor; [|exact IH]. split; [reflexivity|exact H].
Qed.
Lemma total_near : forall n db sql L L', Forall2 (fun x x' : gostring * load => fst x = fst x' /\ near_load n (snd x) (snd x')) L L' ->
  forall q', total_load db sql L' q' -> 0 <= q' /\ exists q, total_load db sql L q /\ within_eps n q q'.
Proof.
  intros n db sql L L' H. unfold within_eps. induction H as [|[d x] [d' x'] l l' [E H1] H2 IH]; intros q' T.
  - inversion T as [q0 Z | |]. subst q0. rewrite Z. split; [apply Qle_refl|]. exists 0. split; [constructor; reflexivity|]. rewrite Z. rewrite Qmult_0_r. apply Qle_refl.
  - cbn [fst snd] in E, H1. subst d'. destruct H1 as (S1 & _ & _ & _ & P & W). unfold within_eps in W. apply abs_bounds in W.
    inversion T as [| y ls q0 S0 T0 EL EQ | y ls q0 S0 T0 EL EQ].
    + subst. destruct (IH _ T0) as (P0 & q & T1 & W1). apply abs_bounds in W1. split; [lra|]. exists (sl_sum x + q). split; [now constructor|]. apply bounds_abs; lra.
    + subst. cbn [fst snd] in S0. destruct (IH _ T0) as (P0 & q & T1 & W1). split; [exact P0|]. exists q. split; [|exact W1]. constructor; [|exact T1]. cbn [fst snd]. now rewrite S1.
Qed.

(** From the samples to the bars: what is shown on the page is the sum of the samples that
    the hours keep, although Go and then JavaScript rounded after every step. *)
Theorem bars_float : forall rnd keys srt count targets fuel start end_ avgs rows rows', rounding rnd ->
  (forall l, Permutation (keys l) l) -> is_sort rank_less srt ->
  let vs := map s_value (samples_of avgs) in
  plain_values vs -> (Z.of_nat (length vs) <= 2 ^ 50)%Z ->
  f_rows rnd fuel start end_ avgs = Some rows -> convert_loads Qplus qlt fuel start end_ avgs = Some rows' ->
  let sums := map (fun x => sl_sum (snd x)) (table_loads rows) in
  fold_right Qplus 0 sums <= Qpower (2 # 1) 1000 -> (Z.of_nat (length sums) <= 2 ^ 50)%Z ->
  forall p q, In p (f_ranking rnd keys srt count targets rows) -> total_load (rk_db p) (rk_sql p) (table_loads rows') q ->
  Qabs (rk_percent p - 100 * q) <= inject_Z (4 * Z.of_nat (length sums) + 2 * Z.of_nat (length vs)) * Qpower (2 # 1) (-53) * (100 * q).
Proof.
  intros rnd keys srt count targets fuel start end_ avgs rows rows' RND HK HS vs PV FV ER ER' sums BS FS p q IP TQ.
  pose proof (loads_float rnd fuel start end_ avgs RND PV FV) as LF. rewrite ER, ER' in LF. fold vs in LF. apply loads_near in LF. set (n := length vs) in *.
  assert (0 <= inject_Z (Z.of_nat (2 * n)) * eps /\ inject_Z (Z.of_nat (2 * n)) * eps <= 1 # 4) as [N0 N1].
  { rewrite eps_val. assert (inject_Z (Z.of_nat (2 * n)) <= inject_Z (2 ^ 51)) as A by (apply inject_le; lia). change (inject_Z (2 ^ 51)) with 2251799813685248 in A.
    assert (0 <= inject_Z (Z.of_nat (2 * n))) as B by (apply (inject_le 0); lia). split; lra. }
  assert (plain_values sums) as PS.
  { split; [|exact BS]. unfold sums. apply Forall_map. clear -LF N0 N1. induction LF as [|x x' l l' [_ (_ & _ & _ & F & P & W)] H IH]; constructor; [|exact IH]. split; [exact F|].
    unfold within_eps in W. apply abs_bounds in W. set (k := inject_Z (Z.of_nat (2 * n)) * eps) in *.
    assert (k * sl_sum (snd x') <= (1 # 4) * sl_sum (snd x')) by (apply Qmult_le_compat_r; assumption). lra. }
  destruct (ranking_float rnd keys srt count targets rows RND HK HS PS FS) as (_ & RK & _). fold sums in RK. destruct (RK p IP) as (_ & _ & K).
  destruct (total_near _ _ _ _ _ LF _ TQ) as (Q0 & q1 & T1 & W1). specialize (K q1 T1). unfold within_eps in W1.
  assert (inject_Z (4 * Z.of_nat (length sums) + 2 * Z.of_nat n) * two (-53) == 2 * (inject_Z (2 * Z.of_nat (length sums)) * two (-53)) + inject_Z (Z.of_nat (2 * n)) * eps) as EQ.
  { change (two (-53)) with eps. replace (Z.of_nat (2 * n)) with (2 * Z.of_nat n)%Z by lia. rewrite inject_Z_plus, !inject_Z_mult. change (inject_Z 4) with 4. change (inject_Z 2) with 2. ring. }
  rewrite EQ. assert (0 <= inject_Z (2 * Z.of_nat (length sums)) * two (-53)) as T0 by (apply Qmult_le_0_compat; [apply (inject_le 0); lia|apply Qlt_le_weak, two_pos]).
  set (a := inject_Z (2 * Z.of_nat (length sums)) * two (-53)) in *. set (b := inject_Z (Z.of_nat (2 * n)) * eps) in *. apply abs_bounds in K, W1.
  assert (b * q <= (1 # 4) * q) as B by (apply Qmult_le_compat_r; assumption).
  assert (a * q1 <= a * (2 * q)) as A.
  { rewrite !(Qmult_comm a). apply Qmult_le_compat_r; [lra|exact T0]. }
  apply bounds_abs; lra.
Qed.
Example bars_float_nonvacuous : exists rows rows',
  f_rows fl 5 ex_start ex_start ex_favgs = Some rows /\ convert_loads Qplus qlt 5 ex_start ex_start ex_favgs = Some rows' /\
  fold_right Qplus 0 (map (fun x => sl_sum (snd x)) (table_loads rows)) <= Qpower (2 # 1) 1000 /\ length (table_loads rows) = 3%nat /\
  names (f_ranking fl (fun x => x) (LoadChartsProperties.sort_by rank_less) 2 [lit "a"] rows) = [lit "SELECT 2"; lit "SELECT 3"].
Proof.
  destruct (f_rows fl 5 ex_start ex_start ex_favgs) as [rows|] eqn:E; [|vm_compute in E; discriminate].
  destruct (convert_loads Qplus qlt 5 ex_start ex_start ex_favgs) as [rows'|] eqn:E'; [|vm_compute in E'; discriminate].
  exists rows, rows'. split; [reflexivity|]. split; [reflexivity|]. vm_compute in E. injection E as <-. split; [vm_compute; discriminate|]. split; vm_compute; reflexivity.
Qed.

Print Assumptions fl_rounds.
Print Assumptions total_time_float.
Print Assumptions percent_float.
Print Assumptions percent_half_refuted.
Print Assumptions loads_float.
Print Assumptions ranking_float.
Print Assumptions ranking_exact_refuted.
Print Assumptions bars_float.
