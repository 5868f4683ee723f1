(** The properties of Performance Insights loads: C45, C46, C47. *)
From Coq Require Import String List NArith ZArith Bool Lia Arith.
From Verif Require Import Base Pi PiSpec PiProofs PiFetchProofs.
From Verif Require OtelSpec.
Import ListNotations.
Local Open Scope nat_scope.

(** Samples used by the examples: two databases, times in nanoseconds. *)
Definition ex_at (h m : Z) : gtime := {| t_ns := h * 3600000000000 + m * 60000000000; t_loc := UTC |}.
Definition ex_avgs : list (@load_avg Z) :=
  [ {| la_db := lit "a"; la_sql := lit "SELECT 1"; la_tok := lit "t1"; la_values := [(3, ex_at 100 5); (5, ex_at 100 10); (1, ex_at 101 0)]%Z |};
    {| la_db := lit "b"; la_sql := lit "SELECT 1"; la_tok := lit "t2"; la_values := [(7, ex_at 100 0)]%Z |};
    {| la_db := lit "a"; la_sql := lit "SELECT 2"; la_tok := lit "t3"; la_values := [(2, ex_at 100 59)]%Z |};
    {| la_db := lit "a"; la_sql := lit "SELECT 1"; la_tok := lit "t4"; la_values := [(4, ex_at 100 15)]%Z |} ].
Lemma Z_weak_order : weak_order Z.ltb.
Proof.
  split.
  - intros a b H. apply Z.ltb_lt in H. apply Z.ltb_ge. lia.
  - intros a b c H1 H2. apply Z.ltb_ge in H1, H2. apply Z.ltb_ge. lia.
Qed.

(** C45: the rows are the consecutive hours, and each lists the databases, SQLs, sums
    and maxima of exactly its samples.  All times and zones. *)
Theorem hourly_loads : forall V (vadd : V -> V -> V) (vlt : V -> V -> bool) start end_ avgs,
    weak_order vlt ->
    exists enough rows, (forall fuel, enough <= fuel -> convert_loads vadd vlt fuel start end_ avgs = Some rows) /\
      hourly vadd vlt start end_ avgs rows.
Proof.
  intros V vadd vlt start end_ avgs WO.
  set (n := Z.to_nat (Z.max 0 (t_ns end_ - t_ns start) + 2)).
  destruct (convert_hourly vadd vlt n start end_ avgs WO) as (rows & E & H).
  { unfold n. rewrite Z2Nat.id by lia. unfold hour. lia. }
  exists n, rows. split; [|exact H]. intros fuel Hf. unfold convert_loads in *. now apply rows_fuel with (fuel := n).
Qed.
Example hourly_loads_nonvacuous : weak_order Z.ltb /\
    convert_loads Z.add Z.ltb 5 (ex_at 100 30) (ex_at 102 0) ex_avgs =
    Some [ {| tl_time := ex_at 100 0;
              tl_dbs := [ {| dl_name := lit "a";
                             dl_sqls := [ {| sl_sql := lit "SELECT 1"; sl_max := 5; sl_sum := 12; sl_tok := lit "t1" |};
                                          {| sl_sql := lit "SELECT 2"; sl_max := 2; sl_sum := 2; sl_tok := lit "t3" |} ] |};
                          {| dl_name := lit "b";
                             dl_sqls := [ {| sl_sql := lit "SELECT 1"; sl_max := 7; sl_sum := 7; sl_tok := lit "t2" |} ] |} ] |};
           {| tl_time := ex_at 101 0;
              tl_dbs := [ {| dl_name := lit "a";
                             dl_sqls := [ {| sl_sql := lit "SELECT 1"; sl_max := 1; sl_sum := 1; sl_tok := lit "t1" |} ] |} ] |};
           {| tl_time := ex_at 102 0; tl_dbs := [] |} ]%Z.
Proof. split; [exact Z_weak_order|vm_compute; reflexivity]. Qed.

(** Every sample of the period lies in the hour of exactly one row, if the start's zone
    is whole hours off UTC and the samples are in UTC. *)
Theorem sample_counted_once : forall V (vadd : V -> V -> V) vlt start end_ avgs rows,
    hourly vadd vlt start end_ avgs rows ->
    (3600000000000 | offset_of (t_loc start))%Z ->
    forall ss s h0, samples_in avgs ss -> In s ss -> t_loc (s_time s) = UTC ->
      clock_hour 0 (t_ns start) h0 ->
      (h0 <= t_ns (s_time s) < h0 + Z.of_nat (length rows) * 3600000000000)%Z ->
      exists k row g, nth_error rows k = Some row /\ in_hour (t_ns (tl_time row)) s /\
        exactly (in_hour (t_ns (tl_time row))) ss g /\ In s g /\ hour_content vadd vlt g (tl_dbs row) /\
        forall k' row', nth_error rows k' = Some row' -> in_hour (t_ns (tl_time row')) s -> k' = k.
Proof.
  intros V vadd vlt start end_ avgs rows (ss' & h0' & S1 & C1 & L & R) HD ss s h0 S2 Hs HU C2 B.
  apply samples_of_in in S1, S2. subst ss ss'.
  apply (clock_hour_shift _ _ _ HD) in C1. pose proof (clock_hour_fun _ _ _ _ C1 C2). subst h0'.
  set (k := Z.to_nat ((t_ns (s_time s) - h0) / 3600000000000)).
  assert (Hk : (h0 + Z.of_nat k * 3600000000000 <= t_ns (s_time s) < h0 + Z.of_nat k * 3600000000000 + 3600000000000)%Z).
  { unfold k. rewrite Z2Nat.id by (apply Z.div_pos; lia).
    pose proof (Z.div_mod (t_ns (s_time s) - h0) 3600000000000 ltac:(lia)). pose proof (Z.mod_pos_bound (t_ns (s_time s) - h0) 3600000000000 ltac:(lia)). lia. }
  destruct (nth_error rows k) as [row|] eqn:Er; [|apply nth_error_None in Er; nia].
  destruct (R k row Er) as (T & g & X & HC). exists k, row, g. rewrite T. cbn [t_ns].
  assert (Hin : in_hour (h0 + Z.of_nat k * 3600000000000) s).
  { split; [exact HU|]. split; [lia|]. destruct C2 as [_ [q Hq]]. exists (q + Z.of_nat k)%Z. lia. }
  split; [exact Er|]. split; [exact Hin|]. split; [exact X|]. split; [apply (exactly_In _ _ _ X); now split|]. split; [exact HC|].
  intros k' row' Hk' Hin'. destruct (R k' row' Hk') as (T' & _). rewrite T' in Hin'. cbn [t_ns] in Hin'.
  destruct Hin' as [_ [Hb _]]. nia.
Qed.
Example sample_counted_once_nonvacuous :
    (3600000000000 | offset_of (t_loc (ex_at 100 30)))%Z /\ samples_in ex_avgs (samples_of ex_avgs) /\
    clock_hour 0 (t_ns (ex_at 100 30)) (t_ns (ex_at 100 0)) /\
    (t_ns (ex_at 100 0) <= t_ns (ex_at 100 59) < t_ns (ex_at 100 0) + 3 * 3600000000000)%Z /\
    In (ex_at 100 59) (map s_time (samples_of ex_avgs)).
Proof.
  split; [exists 0%Z; reflexivity|]. split; [apply samples_of_ok|].
  split; [split; [simpl; lia|exists 100%Z; reflexivity]|]. split; [simpl; lia|]. simpl. tauto.
Qed.

(** Nothing is lost or counted twice: the sums of all rows add up to the values of the
    samples of the period. *)
Theorem loads_conserved : forall V (vadd : V -> V -> V) (zero : V) vlt,
    (forall a b c, vadd a (vadd b c) = vadd (vadd a b) c) -> (forall a b, vadd a b = vadd b a) -> (forall a, vadd zero a = a) ->
    forall start end_ avgs rows, hourly vadd vlt start end_ avgs rows ->
    (3600000000000 | offset_of (t_loc start))%Z ->
    forall ss h0 counted, samples_in avgs ss -> (forall s, In s ss -> t_loc (s_time s) = UTC) ->
      clock_hour 0 (t_ns start) h0 ->
      exactly (fun s => (h0 <= t_ns (s_time s) < h0 + Z.of_nat (length rows) * 3600000000000)%Z) ss counted ->
      total vadd zero (all_sums rows) = total vadd zero (map s_value counted).
Proof.
  intros V vadd zero vlt A C U start end_ avgs rows (ss' & h0' & S1 & C1 & _ & R) HD ss h0 counted S2 HU C2 X.
  apply samples_of_in in S1, S2. subst ss ss'.
  apply (clock_hour_shift _ _ _ HD) in C1. pose proof (clock_hour_fun _ _ _ _ C1 C2). subst h0'.
  eapply (rows_total vadd vlt zero A C U rows h0); [exact HU| |intros k row Hk; exact (proj2 (R k row Hk))|exact X].
  destruct C2 as [_ D]. now rewrite Z.add_0_r in D.
Qed.
Example loads_conserved_nonvacuous :
    (forall a b c, a + (b + c) = (a + b) + c)%Z /\ (forall a b, a + b = b + a)%Z /\ (forall a, 0 + a = a)%Z /\
    (forall s, In s (samples_of ex_avgs) -> t_loc (s_time s) = UTC) /\
    (exists rows, convert_loads Z.add Z.ltb 5 (ex_at 100 30) (ex_at 102 0) ex_avgs = Some rows /\ length rows = 3 /\
       total Z.add 0%Z (all_sums rows) = 22%Z).
Proof.
  split; [intros; lia|]. split; [intros; lia|]. split; [intros; lia|].
  split; [intros s Hs; simpl in Hs; repeat (destruct Hs as [<-|Hs]; [reflexivity|]); destruct Hs|].
  eexists. split; [vm_compute; reflexivity|]. split; reflexivity.
Qed.

Lemma no_hour_content : forall V (vadd : V -> V -> V) vlt (dbs : list db_load), hour_content vadd vlt [] dbs -> dbs = [].
Proof. intros V vadd vlt dbs H. inversion H. reflexivity. Qed.
(** If the start's zone is not whole hours off UTC, every row is empty (finding): the
    rows begin on that zone's hours, the samples are kept by hours of their own zone. *)
Theorem fractional_zone_loses : forall V (vadd : V -> V -> V) vlt start end_ avgs rows,
    hourly vadd vlt start end_ avgs rows ->
    ~ (3600000000000 | offset_of (t_loc start))%Z ->
    forall row, In row rows -> tl_dbs row = [].
Proof.
  intros V vadd vlt start end_ avgs rows (ss & h0 & S1 & [C1 [q Hq]] & L & R) HD row Hr.
  apply In_nth_error in Hr. destruct Hr as (k & Hk). destruct (R k row Hk) as (_ & g & X & HC).
  assert (g = []) as ->; [|now apply no_hour_content in HC]. destruct g as [|s g]; [reflexivity|]. exfalso.
  destruct (proj1 (exactly_In _ _ _ X s) (or_introl eq_refl)) as [_ [_ [_ [p Hp]]]]. apply HD.
  exists (q + Z.of_nat k - p)%Z. lia.
Qed.
Example fractional_zone_loses_nonvacuous : (* India, UTC+5:30 *)
    let start := {| t_ns := t_ns (ex_at 100 0); t_loc := Zone 1 19800000000000 |} in
    ~ (3600000000000 | offset_of (t_loc start))%Z /\
    exists rows, convert_loads Z.add Z.ltb 5 start (ex_at 102 0) ex_avgs = Some rows /\ length rows = 3 /\ all_sums rows = [].
Proof.
  split; [simpl; intros [k Hk]; lia|]. eexists. split; [vm_compute; reflexivity|]. split; reflexivity.
Qed.
(** Samples whose time is given in another zone than UTC are never counted. *)
Theorem foreign_samples_lost : forall V (vadd : V -> V -> V) vlt start end_ avgs rows,
    hourly vadd vlt start end_ avgs rows ->
    (forall ss s, samples_in avgs ss -> In s ss -> t_loc (s_time s) <> UTC) ->
    forall row, In row rows -> tl_dbs row = [].
Proof.
  intros V vadd vlt start end_ avgs rows (ss & h0 & S1 & _ & L & R) HD row Hr.
  apply In_nth_error in Hr. destruct Hr as (k & Hk). destruct (R k row Hk) as (_ & g & X & HC).
  assert (g = []) as ->; [|now apply no_hour_content in HC]. destruct g as [|s g]; [reflexivity|]. exfalso.
  destruct (proj1 (exactly_In _ _ _ X s) (or_introl eq_refl)) as [Hs [HU _]]. exact (HD ss s S1 Hs HU).
Qed.
Example foreign_samples_lost_nonvacuous : (* Tokyo, UTC+9 *)
    let t := {| t_ns := t_ns (ex_at 100 5); t_loc := Zone 1 32400000000000 |} in
    let avgs := [ {| la_db := lit "a"; la_sql := lit "SELECT 1"; la_tok := []; la_values := [(3%Z, t)] |} ] in
    (forall s, In s (samples_of avgs) -> t_loc (s_time s) <> UTC) /\
    exists rows, convert_loads Z.add Z.ltb 5 (ex_at 100 0) (ex_at 102 0) avgs = Some rows /\ length rows = 3 /\ all_sums rows = [].
Proof.
  split; [intros s [<-|[]]; discriminate|]. eexists. split; [vm_compute; reflexivity|]. split; reflexivity.
Qed.

(** C46: the half days tile the week. *)
Theorem half_days_tile : forall start,
    (forall i, i < 14 -> (t_ns (snd (half_day start i)) - t_ns (fst (half_day start i)) = 12 * 3600000000000)%Z) /\
    (forall x, (t_ns start <= x < t_ns start + 7 * 24 * 3600000000000)%Z <->
       exists i, i < 14 /\ (t_ns (fst (half_day start i)) <= x < t_ns (snd (half_day start i)))%Z) /\
    (forall x i j, (t_ns (fst (half_day start i)) <= x < t_ns (snd (half_day start i)))%Z ->
       (t_ns (fst (half_day start j)) <= x < t_ns (snd (half_day start j)))%Z -> i = j).
Proof.
  intros start. unfold half_day. cbn [fst snd t_ns]. split; [intros i _; lia|]. split.
  - intros x. split.
    + intros B. exists (Z.to_nat ((x - t_ns start) / 43200000000000)).
      pose proof (Z.div_mod (x - t_ns start) 43200000000000 ltac:(lia)). pose proof (Z.mod_pos_bound (x - t_ns start) 43200000000000 ltac:(lia)).
      assert (0 <= (x - t_ns start) / 43200000000000 < 14)%Z by (split; [apply Z.div_pos; lia|apply Z.div_lt_upper_bound; lia]).
      split; [lia|]. rewrite Nat2Z.inj_succ, Z2Nat.id by lia. lia.
    + intros (i & Hi & B). lia.
  - intros x i j B1 B2. lia.
Qed.
(** Exactly these half days of every database are asked for, first by SQL then by
    tokenized SQL, and every answer is taken, or the first error ends the run. *)
Theorem week_is_fetched : forall V (vzero : V -> bool) dbs cli start avgs tavgs,
    dig_dbs vzero cli 0 dbs start = Ok (avgs, tavgs) <-> week_fetched vzero cli dbs start avgs tavgs.
Proof. intros. apply fetched_iff. Qed.
Definition ex_metric (name sql : gostring) (v : Z) (t : gtime) : @metric Z :=
  {| m_key := Some {| mk_metric := Some name; mk_dims := Some [(lit "db.sql.statement", sql)] |};
     m_points := [ {| dp_time := Some t; dp_value := Some v |}; {| dp_time := Some t; dp_value := None |};
                   {| dp_time := None; dp_value := Some v |}; {| dp_time := Some t; dp_value := Some 0%Z |} ] |}.
Definition ex_pi (n : nat) (r : request) : outcome (list (@metric Z)) :=
  Ok [ {| m_key := Some {| mk_metric := Some (lit "db.load.avg"); mk_dims := None |}; m_points := [] |};
       ex_metric (lit "db.load.avg") (rq_identifier r ++ lit " " ++ rq_group r) (Z.of_nat n) (rq_start r);
       ex_metric (lit "other") (lit "SELECT 2") 1%Z (rq_start r) ].
Example week_is_fetched_nonvacuous : exists avgs tavgs,
    dig_dbs (Z.eqb 0) ex_pi 0 [ {| db_name := lit "a"; db_resource := lit "db-a" |}; {| db_name := lit "b"; db_resource := lit "db-b" |} ]
      (ex_at 100 0) = Ok (avgs, tavgs) /\ length avgs = 28 /\ length tavgs = 28 /\
    nth_error avgs 15 = Some {| la_db := lit "b"; la_sql := lit "db-b db.sql"; la_tok := []; la_values := [(30%Z, ex_at 112 0)] |}.
Proof. eexists _, _. split; [vm_compute; reflexivity|]. split; [reflexivity|]. split; reflexivity. Qed.

(** An error comes from a call of the service. *)
Theorem fetch_error_origin : forall V (vzero : V -> bool) dbs cli n start msg,
    dig_dbs vzero cli n dbs start = Err msg ->
    exists k r m, cli k r = Err m /\ msg = lit "failed to call GetResourceMetrics of PerformanceInsights: " ++ m.
Proof.
  intros V vzero dbs cli.
  assert (HC : forall db ms sk tk m, convert_metrics vzero db ms sk tk <> Err m).
  { intros db ms sk tk m. destruct (no_missing_dec ms) as [H|(m' & H1 & H2)].
    - destruct (convert_total vzero db ms sk tk H) as (l & kept & -> & _). discriminate.
    - rewrite (convert_panics vzero db ms sk tk m' H1 H2). discriminate. }
  assert (HG : forall n db t group sk tk msg, (do out <- get_half_day cli n db t group; convert_metrics vzero db out sk tk) = Err msg ->
      exists k r m, cli k r = Err m /\ msg = lit "failed to call GetResourceMetrics of PerformanceInsights: " ++ m).
  { intros n db t group sk tk msg. unfold get_half_day. destruct (cli n (half_day_request db t group)) as [out|m|] eqn:Ec; cbn [obind]; try discriminate.
    - intros E. now apply HC in E.
    - intros E. inversion E. eauto. }
  assert (HW : forall k n db t msg, dig_windows vzero k cli n db t = Err msg ->
      exists k r m, cli k r = Err m /\ msg = lit "failed to call GetResourceMetrics of PerformanceInsights: " ++ m).
  { induction k as [|k IH]; intros n db t msg; cbn [dig_windows]; [discriminate|]. unfold get_half_day_sql, get_half_day_tok.
    destruct (do out <- get_half_day cli n db t (lit "db.sql"); convert_metrics vzero db out (lit "db.sql.statement") (lit "db.sql.tokenized_id")) eqn:E1;
      cbn [obind]; [|intros E; inversion E; subst; eapply HG; exact E1|discriminate].
    destruct (do out <- get_half_day cli (S n) db t (lit "db.sql_tokenized"); convert_metrics vzero db out (lit "db.sql_tokenized.statement") (lit "db.sql_tokenized.id")) eqn:E2;
      cbn [obind]; [|intros E; inversion E; subst; eapply HG; exact E2|discriminate].
    destruct (dig_windows vzero k cli (S (S n)) db (tadd t (12 * hour))) eqn:E3; cbn [obind]; [discriminate| |discriminate].
    intros E. inversion E; subst. eapply IH. exact E3. }
  induction dbs as [|db dbs IH]; intros n start msg; cbn [dig_dbs]; [discriminate|].
  destruct (dig_windows vzero 14 cli n db start) eqn:E1; cbn [obind]; [|intros E; inversion E; subst; eapply HW; exact E1|discriminate].
  destruct (dig_dbs vzero cli (n + 28) dbs start) eqn:E2; cbn [obind]; [discriminate| |discriminate].
  intros E. inversion E; subst. eapply IH. exact E2.
Qed.
Example fetch_error_origin_nonvacuous :
    dig_dbs (Z.eqb 0) (fun n r => if Nat.eqb n 5 then Err (lit "denied") else ex_pi n r) 0
      [ {| db_name := lit "a"; db_resource := lit "db-a" |} ] (ex_at 100 0) =
    Err (lit "failed to call GetResourceMetrics of PerformanceInsights: denied").
Proof. vm_compute. reflexivity. Qed.

(** C47 *)
Theorem metrics_converted : forall V (vzero : V -> bool) db ms sk tk l,
    convert_metrics vzero db ms sk tk = Ok l <->
      (forall m, In m ms -> m_key m <> None) /\
      exists kept, exactly (fun m => exists dims, sql_metric m dims) ms kept /\ Forall2 (load_of vzero db sk tk) kept l.
Proof. intros. apply convert_iff. Qed.
Example metrics_converted_nonvacuous : exists l,
    (do out <- ex_pi 4 (half_day_request {| db_name := lit "a"; db_resource := lit "r" |} (ex_at 100 0) (lit "db.sql"));
     convert_metrics (Z.eqb 0) {| db_name := lit "a"; db_resource := lit "r" |} out (lit "db.sql.statement") (lit "db.sql.tokenized_id")) = Ok l /\
    map la_values l = [[(4%Z, ex_at 100 0)]] /\ map la_sql l = [lit "r db.sql"].
Proof. eexists. split; [vm_compute; reflexivity|]. split; reflexivity. Qed.
(** The only other result is a panic, when a metric has no key. *)
Theorem missing_key_panics : forall V (vzero : V -> bool) db ms sk tk,
    (exists m, In m ms /\ m_key m = None) <-> convert_metrics vzero db ms sk tk = Panic.
Proof.
  intros V vzero db ms sk tk. split.
  - intros (m & H1 & H2). now apply convert_panics with (m := m).
  - intros E. destruct (no_missing_dec ms) as [H|H]; [|exact H]. destruct (convert_total vzero db ms sk tk H) as (l & kept & E' & _). congruence.
Qed.
Example missing_key_panics_nonvacuous : exists m : @metric Z, In m [ {| m_key := None; m_points := [] |} ] /\ m_key m = None.
Proof. eexists. split; [now left|reflexivity]. Qed.

(** The whole command: the rows of the fetched loads of all databases, 169 of each
    kind. *)
Theorem pi_dig_result : forall V (vadd : V -> V -> V) vlt vzero fuel describe cli now given rs,
    weak_order vlt -> 171 <= fuel ->
    pi_dig vadd vlt vzero fuel describe cli now given = Ok rs ->
    let start := match given with Some t => t | None => {| t_ns := t_ns now - 7 * 24 * 3600000000000; t_loc := t_loc now |} end in
    exists is dbs avgs tavgs rows trows,
      describe [lit "mysql"] = Ok is /\ Forall2 (fun i db => i = (Some (db_name db), Some (db_resource db))) is dbs /\
      week_fetched vzero cli dbs start avgs tavgs /\ rs = (Some rows, Some trows) /\
      hourly vadd vlt start {| t_ns := t_ns start + 7 * 24 * 3600000000000; t_loc := t_loc start |} avgs rows /\
      hourly vadd vlt start {| t_ns := t_ns start + 7 * 24 * 3600000000000; t_loc := t_loc start |} tavgs trows /\
      length rows = 169 /\ length trows = 169.
Proof.
  intros V vadd vlt vzero fuel describe cli now given rs WO Hf H start. unfold pi_dig in H.
  assert (Es : start = match given with Some t => t | None => tadd now (- week) end).
  { unfold start, tadd, week, hour. destruct given; [reflexivity|]. f_equal. }
  cbv zeta in H. rewrite <- Es in H. clearbody start. clear Es.
  unfold get_dbs in H. destruct (describe [lit "mysql"]) as [is| |] eqn:Ed; cbn [obind] in H; try discriminate.
  destruct (rds_dbs is) as [dbs| |] eqn:Er; cbn [obind] in H; try discriminate.
  destruct (dig_dbs vzero cli 0 dbs start) as [[avgs tavgs]| |] eqn:Eg; cbn [obind fst snd] in H; try discriminate.
  assert (HI : Forall2 (fun i db => i = (Some (db_name db), Some (db_resource db))) is dbs).
  { clear - Er. revert dbs Er. induction is as [|[[nm|] [rn|]] is IH]; intros dbs; cbn [rds_dbs]; try discriminate.
    - intros E. inversion E. constructor.
    - destruct (rds_dbs is) as [r| |]; cbn [obind]; try discriminate. intros E. inversion E; subst. constructor; [reflexivity|now apply IH]. }
  assert (Hl : forall avgs, exists rows, convert_loads vadd vlt fuel start (tadd start week) avgs = Some rows /\
              hourly vadd vlt start {| t_ns := t_ns start + 7 * 24 * 3600000000000; t_loc := t_loc start |} avgs rows /\ length rows = 169).
  { intros av. destruct (convert_hourly vadd vlt fuel start (tadd start week) av WO) as (rows & E & HH).
    { unfold tadd, week, hour. cbn [t_ns]. lia. }
    exists rows. split; [exact E|]. split; [exact HH|]. destruct HH as (ss & h0 & _ & [[B1 B2] _] & L & _).
    unfold tadd, week, hour in L. cbn [t_ns] in L. pose proof (L 168) as L1. pose proof (L 169) as L2. lia. }
  destruct (Hl avgs) as (rows & E1 & H1 & L1). destruct (Hl tavgs) as (trows & E2 & H2 & L2).
  inversion H as [Hr]. rewrite E1, E2. exists is, dbs, avgs, tavgs, rows, trows.
  split; [reflexivity|]. split; [exact HI|]. split; [now apply fetched_iff|]. split; [reflexivity|].
  split; [exact H1|]. split; [exact H2|]. split; assumption.
Qed.
Example pi_dig_result_nonvacuous : exists rows trows,
    pi_dig Z.add Z.ltb (Z.eqb 0) 171 (fun _ => Ok [(Some (lit "a"), Some (lit "r"))]) ex_pi (ex_at 1000 20) None = Ok (Some rows, Some trows) /\
    length rows = 169 /\ length trows = 169 /\ total Z.add 0%Z (all_sums rows) = 182%Z.
Proof. eexists _, _. split; [vm_compute; reflexivity|]. split; [reflexivity|]. split; reflexivity. Qed.
(** The last row begins no earlier than the fetched week ends, if the start is on the
    hour: it is always empty (finding). *)
Theorem last_row_unfetched : forall V (vadd : V -> V -> V) vlt start avgs rows row,
    hourly vadd vlt start {| t_ns := t_ns start + 7 * 24 * 3600000000000; t_loc := t_loc start |} avgs rows ->
    clock_hour (offset_of (t_loc start)) (t_ns start) (t_ns start) ->
    nth_error rows 168 = Some row ->
    forall i x, i < 14 -> (t_ns (fst (half_day start i)) <= x < t_ns (snd (half_day start i)))%Z -> (x < t_ns (tl_time row))%Z.
Proof.
  intros V vadd vlt start avgs rows row (ss & h0 & _ & C1 & _ & R) C2 Hr i x Hi Hx.
  pose proof (clock_hour_fun _ _ _ _ C1 C2). subst h0. destruct (R 168 row Hr) as (-> & _). cbn [t_ns].
  assert (t_ns start <= x < t_ns start + 7 * 24 * 3600000000000)%Z by (apply (proj1 (proj2 (half_days_tile start))); exists i; now split). lia.
Qed.
Example last_row_unfetched_nonvacuous :
    clock_hour (offset_of (t_loc (ex_at 100 0))) (t_ns (ex_at 100 0)) (t_ns (ex_at 100 0)) /\
    exists rows row, convert_loads Z.add Z.ltb 171 (ex_at 100 0) (ex_at 268 0) ex_avgs = Some rows /\ nth_error rows 168 = Some row /\
      tl_time row = ex_at 268 0.
Proof.
  split; [split; [simpl; lia|exists 100%Z; reflexivity]|]. eexists _, _. split; [vm_compute; reflexivity|]. split; reflexivity.
Qed.

Print Assumptions hourly_loads.
Print Assumptions sample_counted_once.
Print Assumptions loads_conserved.
Print Assumptions fractional_zone_loses.
Print Assumptions foreign_samples_lost.
Print Assumptions half_days_tile.
Print Assumptions week_is_fetched.
Print Assumptions fetch_error_origin.
Print Assumptions metrics_converted.
Print Assumptions missing_key_panics.
Print Assumptions pi_dig_result.
Print Assumptions last_row_unfetched.
