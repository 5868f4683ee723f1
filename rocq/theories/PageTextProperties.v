(** C147: numbers and dates shown on the pages of Performance Insights. *)
From Coq Require Import String List NArith ZArith QArith Qround Qabs Bool Lia Arith Lqa.
From Verif Require Import Base Dec IndexBuild Pi LoadCharts LoadChartsSpec Floats FloatsSpec FloatsProofs Tooltip TooltipSpec PageText PageTextSpec PageTextCalendar PageTextProofs.
From Verif Require LoadChartsProperties TooltipProperties.
Import ListNotations.
Local Open Scope list_scope.

(** ** Numbers with places *)
(** toFixed: a decimal number with that many places, the nearest one, of two the larger. *)
Theorem fixed_text : forall d x, exists neg n, decimal d neg n (to_fixed d x) /\ (neg = true <-> x < 0)%Q /\
  (inject_Z (Z.of_N n) - (1 # 2) <= Qabs x * inject_Z (10 ^ Z.of_nat d) /\ Qabs x * inject_Z (10 ^ Z.of_nat d) < inject_Z (Z.of_N n) + (1 # 2))%Q.
Proof.
  intros d x. destruct (to_fixed_decimal d x) as (n & D & E). exists (negb (Qle_bool 0 x)), n. split; [exact D|]. split.
  - rewrite negb_true_iff. rewrite <- not_true_iff_false, Qle_bool_iff. split; intros H; [now apply Qnot_le_lt|now apply Qlt_not_le].
  - rewrite E. apply half_up. apply Qmult_le_0_compat; [apply Qabs_nonneg|]. change 0%Q with (inject_Z 0). rewrite <- Zle_Qle. apply Z.pow_nonneg. lia.
Qed.
Example fixed_text_nonvacuous : to_fixed 2 (1 # 3) = lit "0.33" /\ to_fixed 2 (1 # 8) = lit "0.13" /\ to_fixed 2 (-1 # 1000) = lit "-0.00" /\ to_fixed 0 (5 # 2) = lit "3" /\
  to_fixed 2 (10299 # 100) = lit "102.99" /\ yaxis_label (1999 # 10) = lit "200".
Proof. split; [|split; [|split; [|split; [|split]]]]; vm_compute; reflexivity. Qed.
(** A text is one number only. *)
Theorem decimal_unique : forall d neg neg' n n' s, decimal d neg n s -> decimal d neg' n' s -> neg = neg' /\ n = n'.
Proof.
  intros d neg neg' n n' s (w & p & E & D & L & H & R) (w' & p' & E' & D' & L' & H' & R').
  assert (forall u, (u = [48%N] \/ exists c r, u = c :: r /\ c <> 48%N) -> forall p, Forall digit (u ++ p) -> exists c r, u = c :: r /\ digit c) as HD.
  { intros u [-> | (c & r & -> & _)] q F; inversion F; subst; eauto. }
  destruct (HD w H p D) as (c & r & W & C). destruct (HD w' H' p' D') as (c' & r' & W' & C').
  assert (neg = neg') as N.
  { rewrite E in E'. destruct neg, neg'; try reflexivity; exfalso; rewrite W, W' in E'; cbn [app] in E'; injection E' as X _; unfold digit in C, C'; lia. }
  split; [exact N|]. subst neg'. rewrite E in E'. apply app_inv_head in E'.
  assert (w ++ p = w' ++ p') as K.
  { destruct d as [|d]; [destruct p, p'; try discriminate; exact E'|].
    assert (length w = length w') as LW.
    { apply (f_equal (@length rune)) in E'. rewrite !app_length in E'. cbn [length] in E'. lia. }
    destruct (app_same _ _ _ _ _ LW E') as [-> E2]. injection E2 as ->. reflexivity. }
  rewrite <- R, <- R', K. reflexivity.
Qed.
Example decimal_unique_nonvacuous : decimal 2 false 33 (lit "0.33").
Proof. exists (lit "0"), (lit "33"). split; [reflexivity|]. split; [repeat constructor; discriminate|]. split; [reflexivity|]. split; [left; reflexivity|reflexivity]. Qed.

(** ** Times *)
(** toUTCString: the names and numbers of the day in the Gregorian calendar; different
    seconds have different texts. *)
Theorem utc_right : exists date week, calendar date /\ weekdays week /\
  (forall ms, (-62167219200000 <= ms < 253402300800000)%Z -> utc_text date week (ms / 1000) (utc_string ms)) /\
  forall ms ms', (-62167219200000 <= ms < 253402300800000)%Z -> (-62167219200000 <= ms' < 253402300800000)%Z ->
    utc_string ms = utc_string ms' -> (ms / 1000 = ms' / 1000)%Z.
Proof.
  exists (fun n => triple (date_of_day n)), week_string. split; [exact date_calendar|]. split; [exact week_ok|]. split; [exact utc_shown|].
  intros ms ms' H H' E. apply utc_text_inj with (utc_string ms); [now apply utc_shown|]. rewrite E. now apply utc_shown.
Qed.
Example utc_right_nonvacuous : utc_string 0 = lit "Thu, 01 Jan 1970 00:00:00 GMT" /\ utc_string 1672531199999 = lit "Sat, 31 Dec 2022 23:59:59 GMT" /\
  utc_string 1709164800000 = lit "Thu, 29 Feb 2024 00:00:00 GMT" /\ utc_string 4107542400000 = lit "Mon, 01 Mar 2100 00:00:00 GMT" /\
  utc_string (-62167219200000) = lit "Sat, 01 Jan 0000 00:00:00 GMT".
Proof. split; [|split; [|split; [|split]]]; vm_compute; reflexivity. Qed.
(** The calendar is determined by what is asked of it *)
Lemma next_unique : forall a b c, next_day a b -> next_day a c -> b = c.
Proof.
  intros a b c H1 H2. destruct H1 as [y m d L|y m L|y]; inversion H2; subst; try reflexivity; try lia; exfalso;
    match goal with H : (_ < month_length _ _)%Z |- _ => revert H end; unfold month_length; lia.
Qed.
Theorem calendar_unique : forall date, calendar date -> forall n, (0 <= n)%Z -> date n = (d_year (date_of_day n), d_month (date_of_day n), d_day (date_of_day n)).
Proof.
  intros date [Z0 N] n P. pattern n. apply natlike_ind; [exact Z0| |exact P]. intros k K E. unfold Z.succ.
  pose proof (N k) as A. rewrite E in A. apply next_unique with (1 := A). exact (date_next k).
Qed.

(** ** Loads *)
(** The percentage of a load in the tooltips and in the table of plain SQLs *)
Theorem load_text : forall rnd v y, rounding rnd -> is_float v -> (0 <= v <= Qpower (2 # 1) 1000)%Q -> (y == 100 * v)%Q ->
  exists n, decimal 2 false n (to_fixed 2 (rnd y)) /\
    (Qabs (inject_Z (Z.of_N n) / 100 - 100 * v) <= (1 # 200) + Qpower (2 # 1) (-53) * (100 * v))%Q.
Proof.
  intros rnd v y RND F [P U] Y. destruct (fixed_text 2 (rnd y)) as (neg & n & D & S & B).
  assert (fine y) as FN by (apply fine_comp with (v * 100)%Q; [rewrite Y; ring|]; apply (fine_mult v 100); now apply float_fine).
  assert ((y <= Qpower (2 # 1) 1023)%Q) as M.
  { assert (Qpower (2 # 1) 1023 == inject_Z (2 ^ 23) * Qpower (2 # 1) 1000)%Q as TX by (rewrite <- (two_Z 23) by lia; rewrite <- two_plus; reflexivity). change (inject_Z (2 ^ 23)) with 8388608%Q in TX.
    pose proof (two_pos 1000) as TP. lra. }
  destruct (rnd_pos rnd RND y) as [R1 R2]; [lra|now right|exact M|].
  set (x := rnd y) in *. change (Qpower (2 # 1) (-53)) with eps. rewrite eps_val in R1, R2. rewrite Y in R1, R2.
  assert (0 <= x)%Q as X by lra. assert (neg = false) as ->.
  { destruct neg; [|reflexivity]. exfalso. assert (x < 0)%Q by (now apply S). lra. }
  exists n. split; [exact D|]. rewrite (Qabs_pos x X) in B. change (inject_Z (10 ^ Z.of_nat 2)) with 100%Q in B. set (k := inject_Z (Z.of_N n)) in *.
  assert (k / 100 == (1 # 100) * k)%Q as -> by field. rewrite eps_val. apply bounds_abs; lra.
Qed.
Example load_text_nonvacuous : is_float (3602879701896397 # 36028797018963968) /\ to_fixed 2 (fl ((3602879701896397 # 36028797018963968) * 100)) = lit "10.00".
Proof. split; [exists 3602879701896397%Z, (-55)%Z; split; [reflexivity|split; [lia|reflexivity]]|vm_compute; reflexivity]. Qed.

(** What a reader sees who points at a load of a timeline: the hour of its row, the
    database, the percentage and the SQL. *)
Theorem tooltip_text : forall rnd targets threshold rows i j s r t, rounding rnd -> Forall distinct_row rows ->
  nth_error (load_series targets threshold rows) i = Some s -> nth_error rows j = Some r ->
  plain (se_db s) = true -> plain (se_name s) = true -> (-62167219200 <= t_ns (tl_time r) / 1000000000 < 253402300800)%Z ->
  (forall db l, In (db, l) (table_loads rows) -> is_float (sl_max l) /\ (0 <= sl_max l <= Qpower (2 # 1) 1000)%Q) ->
  hover_timeline (fun q => to_fixed 2 (rnd q)) utc_string targets threshold rows i j = Ok t ->
  exists l date week ts ps n, drawn_load targets threshold r (se_db s) (se_name s) l /\
    calendar date /\ weekdays week /\ utc_text date week (t_ns (tl_time r) / 1000000000) ts /\
    decimal 2 false n ps /\ (Qabs (inject_Z (Z.of_N n) / 100 - 100 * sl_max l) <= (1 # 200) + Qpower (2 # 1) (-53) * (100 * sl_max l))%Q /\
    visible t = lit "
    
      " ++ ts ++ lit "
      Database: " ++ se_db s ++ lit "
      
        db.load.avg:" ++ [160%N] ++ lit "
        
          " ++ ps ++ lit "%
        
      
      " ++ se_name s ++ lit "
    
    ".
Proof.
  intros rnd targets threshold rows i j s r t RND DR S R PD PS TM FL OK. unfold hover_timeline in OK. rewrite S in OK.
  destruct (LoadChartsProperties.load_series_aligned targets threshold rows DR) as (_ & _ & A). destruct (A s (nth_error_In _ _ S)) as (_ & P).
  destruct (nth_error (se_data s) j) as [p|] eqn:EP; [|discriminate]. destruct (p_prop p) as [pr|] eqn:EQ; [|discriminate].
  assert (t = load_max_tooltip (fun q => to_fixed 2 (rnd q)) utc_string pr) as -> by congruence. clear OK.
  destruct (P j r p R EP) as [(l & K1 & _ & _ & pr' & E1 & K2 & K3 & K4 & K5 & _)|(_ & _ & E1)]; [|congruence].
  assert (pr' = pr) as -> by congruence. exists l.
  assert (In (se_db s, l) (table_loads rows)) as IN.
  { destruct K1 as [(d & Hd & E2 & Hl & _) _]. apply in_flat_map. exists r. split; [now apply nth_error_In with j|]. apply in_flat_map. exists d. split; [exact Hd|]. rewrite <- E2. now apply in_map. }
  destruct (FL _ _ IN) as [F1 F2]. destruct (load_text rnd (sl_max l) (pr_percent pr) RND F1 F2 K3) as (n & D & B).
  assert (pr_date pr / 1000 = t_ns (tl_time r) / 1000000000)%Z as ET.
  { unfold at_milli in K2. apply Z.div_unique with (r := (t_ns (tl_time r) - pr_date pr / 1000 * 1000000000)%Z); [left|lia].
    pose proof (Z.div_mod (pr_date pr) 1000 ltac:(lia)). pose proof (Z.mod_pos_bound (pr_date pr) 1000 ltac:(lia)). lia. }
  exists (fun n => triple (date_of_day n)), week_string, (utc_string (pr_date pr)), (to_fixed 2 (rnd (pr_percent pr))), n.
  split; [exact K1|]. split; [exact date_calendar|]. split; [exact week_ok|]. split.
  { rewrite <- ET. apply utc_shown. rewrite <- ET in TM. pose proof (Z.div_mod (pr_date pr) 1000 ltac:(lia)). pose proof (Z.mod_pos_bound (pr_date pr) 1000 ltac:(lia)). lia. }
  split; [exact D|]. split; [exact B|]. rewrite <- K4 in PD |- *. rewrite <- K5 in PS |- *.
  apply (TooltipProperties.load_max_shown (fun q => to_fixed 2 (rnd q)) utc_string); [intros q; apply quiet_plain, fixed_quiet|intros z; apply quiet_plain, utc_quiet|exact PD|exact PS].
Qed.

(** The table under a clicked bar: a line for each of the SQLs picked, with the database,
    the load, the hour and the SQL.  It is never empty, so `No data' is never read. *)
Theorem raw_table_text : forall rnd srt rows size tok got, rounding rnd -> is_sort raw_less srt ->
  (forall db l, In (db, l) (table_loads rows) -> is_float (sl_max l) /\ (0 <= sl_max l <= Qpower (2 # 1) 1000)%Q) ->
  (forall r, In r rows -> (-62167219200 <= t_ns (tl_time r) / 1000000000 < 253402300800)%Z) ->
  pick_raw_loads srt (create_raw_loads rows) (S size) tok = Ok got ->
  got <> [] /\ exists date week, calendar date /\ weekdays week /\
  Forall2 (fun x line => exists r ps ts n, In r rows /\ In (rw_db x, rw_load x) (table_loads [r]) /\ sl_tok (rw_load x) = tok /\
      line = [rw_db x; ps ++ lit "%"; ts; sl_sql (rw_load x)] /\
      utc_text date week (t_ns (tl_time r) / 1000000000) ts /\ decimal 2 false n ps /\
      (Qabs (inject_Z (Z.of_N n) / 100 - 100 * sl_max (rw_load x)) <= (1 # 200) + Qpower (2 # 1) (-53) * (100 * sl_max (rw_load x)))%Q)
    got (raw_table rnd got).
Proof.
  intros rnd srt rows size tok got RND HS FL TM PK. destruct (LoadChartsProperties.raw_loads_picked srt rows (S size) tok HS) as (PA & _ & OK).
  destruct (OK got PK) as (every & same & EV & RAW & EX & LG & _ & rest & PERM & _).
  assert (forall x, In x same -> In x every /\ sl_tok (rw_load x) = tok) as SUB.
  { clear -EX. induction EX as [|x xs l P H IH|x xs l P H IH]; intros z I; [contradiction| |]; [destruct I as [-> | I]; [split; [now left|exact P]|]|]; destruct (IH z I) as [I1 I2]; split; [now right|exact I2|now right|exact I2]. }
  assert (forall x, In x got -> raw_of rows x /\ sl_tok (rw_load x) = tok) as GOT.
  { intros x I. assert (In x same) as J by (apply (Permutation.Permutation_in _ PERM), in_or_app; now left). destruct (SUB x J) as [J1 J2]. split; [|exact J2]. rewrite Forall_forall in RAW. now apply RAW. }
  assert (got <> []) as NE.
  { destruct got as [|g got']; [|discriminate]. exfalso. destruct same as [|x same']; [|discriminate LG].
    assert (pick_raw_loads srt (create_raw_loads rows) (S size) tok = Panic) as C; [|congruence]. apply PA. intros db l I E. rewrite <- EV in I. apply in_map_iff in I. destruct I as (x & E1 & I).
    injection E1 as _ E1. subst l. clear -EX I E. remember (@nil raw_load) as e eqn:EE. induction EX as [|y xs l P H IH|y xs l P H IH]; [contradiction|discriminate|]. destruct I as [-> | I]; [contradiction|now apply IH]. }
  split; [exact NE|]. exists (fun n => triple (date_of_day n)), week_string. split; [exact date_calendar|]. split; [exact week_ok|].
  unfold raw_table. destruct got as [|g got']; [congruence|]. set (all := g :: got') in *. clearbody all. clear -GOT RND FL TM. induction all as [|x all IH]; cbn [map]; constructor.
  - destruct (GOT x (or_introl eq_refl)) as [(r & d & H1 & H2 & H3 & H4 & H5) TK].
    assert (In (rw_db x, rw_load x) (table_loads [r])) as IN.
    { unfold table_loads. cbn [flat_map]. rewrite app_nil_r. apply in_flat_map. exists d. split; [exact H2|]. rewrite H3. now apply in_map. }
    assert (In (rw_db x, rw_load x) (table_loads rows)) as IN'.
    { apply in_flat_map. exists r. split; [exact H1|]. unfold table_loads in IN. cbn [flat_map] in IN. now rewrite app_nil_r in IN. }
    destruct (FL _ _ IN') as [F1 F2]. destruct (load_text rnd (sl_max (rw_load x)) (sl_max (rw_load x) * 100) RND F1 F2 ltac:(ring)) as (n & D & B).
    exists r, (to_fixed 2 (rnd (sl_max (rw_load x) * 100)%Q)), (utc_string (rw_date x)), n. split; [exact H1|]. split; [exact IN|]. split; [exact TK|]. split; [reflexivity|].
    assert (rw_date x / 1000 = t_ns (tl_time r) / 1000000000)%Z as ET.
    { unfold at_milli in H5. apply Z.div_unique with (r := (t_ns (tl_time r) - rw_date x / 1000 * 1000000000)%Z); [left|lia].
      pose proof (Z.div_mod (rw_date x) 1000 ltac:(lia)). pose proof (Z.mod_pos_bound (rw_date x) 1000 ltac:(lia)). lia. }
    split; [|split; [exact D|exact B]]. rewrite <- ET. specialize (TM r H1). apply utc_shown. rewrite <- ET in TM.
    pose proof (Z.div_mod (rw_date x) 1000 ltac:(lia)). pose proof (Z.mod_pos_bound (rw_date x) 1000 ltac:(lia)). lia.
  - apply IH. intros z I. apply GOT. now right.
Qed.

Definition ex_time : gtime := {| t_ns := 1672531200000000000; t_loc := UTC |}.
Definition ex_page : list row :=
  [ {| tl_time := ex_time; tl_dbs := [ {| dl_name := lit "shop"; dl_sqls :=
       [ {| sl_sql := lit "SELECT * FROM users WHERE age < 20"; sl_max := 1 # 8; sl_sum := 1 # 4; sl_tok := lit "t1" |};
         {| sl_sql := lit "SELECT 2"; sl_max := 1; sl_sum := 1; sl_tok := lit "t1" |} ] |} ] |} ].
Lemma ex_page_loads : forall db l, In (db, l) (table_loads ex_page) -> is_float (sl_max l) /\ (0 <= sl_max l <= Qpower (2 # 1) 1000)%Q.
Proof.
  intros db l H. cbn [table_loads ex_page flat_map map app tl_dbs dl_sqls dl_name] in H. destruct H as [H|[H|[]]]; injection H as _ <-; cbn [sl_max]; (split; [|split; vm_compute; discriminate]).
  - exists 1%Z, (-3)%Z. split; [reflexivity|split; [lia|reflexivity]].
  - exists 1%Z, 0%Z. split; [reflexivity|split; [lia|reflexivity]].
Qed.
Example tooltip_text_nonvacuous : Forall distinct_row ex_page /\
  (exists s t, nth_error (load_series [lit "shop"] (5 # 1000) ex_page) 0 = Some s /\ plain (se_db s) = true /\ plain (se_name s) = true /\
     hover_timeline (fun q => to_fixed 2 (fl q)) utc_string [lit "shop"] (5 # 1000) ex_page 0 0 = Ok t /\
     visible t = lit "
    
      Sun, 01 Jan 2023 00:00:00 GMT
      Database: shop
      
        db.load.avg:" ++ [160%N] ++ lit "
        
          12.50%
        
      
      SELECT * FROM users WHERE age < 20
    
    ").
Proof.
  split.
  - constructor; [|constructor]. unfold distinct_row. cbn. constructor; [intros [H|[]]; discriminate H|]. constructor; [intros []|constructor].
  - eexists. eexists. split; [vm_compute; reflexivity|]. split; [vm_compute; reflexivity|]. split; [vm_compute; reflexivity|]. split; [vm_compute; reflexivity|]. vm_compute. reflexivity.
Qed.
Example raw_table_text_nonvacuous : exists got, pick_raw_loads (LoadChartsProperties.sort_by raw_less) (create_raw_loads ex_page) 10 (lit "t1") = Ok got /\
  raw_table fl got = [ [lit "shop"; lit "100.00%"; lit "Sun, 01 Jan 2023 00:00:00 GMT"; lit "SELECT 2"];
                       [lit "shop"; lit "12.50%"; lit "Sun, 01 Jan 2023 00:00:00 GMT"; lit "SELECT * FROM users WHERE age < 20"] ].
Proof. eexists. split; [vm_compute; reflexivity|]. vm_compute. reflexivity. Qed.
Example calendar_unique_nonvacuous : calendar (fun n => (d_year (date_of_day n), d_month (date_of_day n), d_day (date_of_day n))).
Proof. exact date_calendar. Qed.

Print Assumptions fixed_text.
Print Assumptions decimal_unique.
Print Assumptions utc_right.
Print Assumptions calendar_unique.
Print Assumptions load_text.
Print Assumptions tooltip_text.
Print Assumptions raw_table_text.
