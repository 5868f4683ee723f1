(** The properties of the load charts: C55, C81, C82, C83. *)
From Coq Require Import String List NArith ZArith QArith Bool Lia Arith Permutation Lqa Sorted.
From Verif Require Import Base Pi PiSpec PiProofs IndexBuild LoadCharts LoadChartsSpec LoadChartsProofs.
From Verif Require OtelSpec.
Import ListNotations.
Local Open Scope nat_scope.

(** ** Values for the examples *)
Definition ex_hour (h : Z) : gtime := {| t_ns := h * 3600000000000; t_loc := UTC |}.
Definition ex_load (sql : string) (m s : Q) (tok : string) : load :=
  {| sl_sql := lit sql; sl_max := m; sl_sum := s; sl_tok := lit tok |}.
Definition ex_rows : list row :=
  [ {| tl_time := ex_hour 100;
       tl_dbs := [ {| dl_name := lit "b"; dl_sqls := [ex_load "SELECT 1" (1 # 2) (3 # 4) "t1"; ex_load "SELECT 2" (1 # 1000) (1 # 1000) "t2"] |};
                   {| dl_name := lit "a"; dl_sqls := [ex_load "SELECT 1" (1 # 4) (1 # 4) "t1"] |} ] |};
    {| tl_time := ex_hour 101; tl_dbs := [] |};
    {| tl_time := ex_hour 102;
       tl_dbs := [ {| dl_name := lit "b"; dl_sqls := [ex_load "SELECT 3" (1 # 1) 2 "t3"; ex_load "SELECT 2" (1 # 8) (1 # 8) "t2"] |} ] |} ].
Fixpoint insert_by {A} (less : A -> A -> bool) (x : A) (l : list A) : list A :=
  match l with [] => [x] | y :: l' => if less y x then y :: insert_by less x l' else x :: l end.
Definition sort_by {A} (less : A -> A -> bool) (l : list A) : list A := fold_right (insert_by less) [] l.
Lemma sort_by_is_sort : forall A (less : A -> A -> bool),
    (forall a b, less a b = true -> less b a = false) -> (forall a b c, less a b = false -> less b c = false -> less a c = false) ->
    is_sort less (sort_by less).
Proof.
  intros A less AS TR l.
  assert (P : forall x l, Permutation (insert_by less x l) (x :: l)).
  { intros x. induction l0 as [|y l0 IH]; cbn [insert_by]; [auto|]. destruct (less y x); [|auto].
    rewrite IH. apply perm_swap. }
  induction l as [|x l [IH1 IH2]]; [split; constructor|]. cbn [sort_by fold_right]. fold (sort_by less l).
  split; [rewrite P; now constructor|]. clear IH1. induction IH2 as [|y l0 HF H IH]; cbn [insert_by].
  - repeat constructor.
  - destruct (less y x) eqn:E.
    + constructor; [|exact IH]. eapply Permutation_Forall; [apply Permutation_sym, P|]. constructor; [auto|exact HF].
    + constructor; [|now constructor]. constructor; [exact E|]. eapply Forall_impl; [|exact HF]. cbn. intros z Hz. eauto.
Qed.
Lemma q_desc_sort : forall A (v : A -> Q), is_sort (fun a b => qlt (v b) (v a)) (sort_by (fun a b => qlt (v b) (v a))).
Proof.
  intros A v. apply sort_by_is_sort.
  - intros a b H. apply qlt_lt in H. apply qlt_ge. now apply Qlt_le_weak.
  - intros a b c H1 H2. apply qlt_ge in H1, H2. apply qlt_ge. eapply Qle_trans; eauto.
Qed.

(** ** C55 *)
(** One series for each SQL drawn, one point for each row, each with the data of its
    row.  Rows with one load per database and SQL, any databases chosen, any threshold. *)
Theorem load_series_aligned : forall targets threshold rows, Forall distinct_row rows ->
    NoDup (map (fun s => (se_db s, se_name s)) (load_series targets threshold rows)) /\
    (forall db sql, (exists s, In s (load_series targets threshold rows) /\ se_db s = db /\ se_name s = sql) <->
                    exists r l, In r rows /\ drawn_load targets threshold r db sql l) /\
    (forall s, In s (load_series targets threshold rows) ->
       length (se_data s) = length rows /\
       forall i r p, nth_error rows i = Some r -> nth_error (se_data s) i = Some p ->
         point_of targets threshold (se_db s) (se_name s) r p).
Proof.
  intros targets threshold rows HD. destruct (series_inv targets threshold rows HD) as [ND INV].
  split; [exact ND|]. split.
  - intros db sql. specialize (INV (db, sql)). unfold data_of in INV.
    destruct (get se_key (load_series targets threshold rows) (db, sql)) as [s|] eqn:G; cbn [option_map] in INV.
    + split.
      * intros _. destruct INV as (_ & f & rf & (F1 & F2 & _) & _). exists rf.
        destruct (event_of targets threshold rf (db, sql)) as [e|] eqn:E; [|congruence]. apply event_of_some in E.
        exists (snd e). split; [eapply nth_error_In; eauto|apply E].
      * intros _. apply get_key in G. destruct G as [E Hin]. exists s. injection E as E1 E2. auto.
    + split.
      * intros (s & Hin & <- & <-). change (get se_key (load_series targets threshold rows) (se_key s) = None) in G.
        rewrite (get_in se_key _ _ ND Hin) in G. discriminate.
      * intros (r & l & Hr & HL). specialize (INV r Hr). rewrite event_of_none in INV. now apply INV in HL.
  - intros s Hs. specialize (INV (se_key s)). unfold data_of in INV. rewrite (get_in se_key _ _ ND Hs) in INV.
    cbn [option_map] in INV. destruct INV as (HL & f & rf & HF & HS). split; [exact HL|]. intros i r p Hr Hp.
    rewrite (HS i r Hr) in Hp. injection Hp as <-. destruct (event_of targets threshold r (se_key s)) as [e|] eqn:E.
    + left. apply event_of_some in E. destruct E as [HD1 E1]. exists (snd e). cbn [se_key fst snd] in HD1, E1.
      assert (E2 : sl_sql (snd e) = se_name s) by (destruct HD1 as ((d & _ & _ & _ & E2) & _); exact E2).
      unfold load_point. cbn [p_x p_y p_prop]. split; [exact HD1|]. split; [apply Qmult_comm|]. split; [apply row_date_milli|].
      eexists. split; [reflexivity|]. cbn [pr_date pr_percent pr_db pr_sql pr_tok]. split; [apply row_date_milli|].
      split; [apply Qmult_comm|]. auto.
    + right. split; [rewrite event_of_none in E; exact E|]. split; [reflexivity|reflexivity].
Qed.
Example load_series_aligned_nonvacuous : Forall distinct_row ex_rows /\
    map (fun s => (se_db s, se_name s, map (fun p => Qred (p_y p)) (se_data s))) (load_series [lit "b"] (5 # 1000) ex_rows) =
    [ (lit "b", lit "SELECT 1", [50; 0; 0]); (lit "b", lit "SELECT 3", [0; 0; 100]); (lit "b", lit "SELECT 2", [0; 0; 25 # 2]) ]%Q.
Proof.
  split; [|vm_compute; reflexivity]. repeat constructor; cbn; intuition discriminate.
Qed.

(** The times of the points: a point's own row once the series has begun, before that
    the row in which it begins. *)
Theorem load_series_times : forall targets threshold rows s i r p, Forall distinct_row rows ->
    In s (load_series targets threshold rows) -> nth_error rows i = Some r -> nth_error (se_data s) i = Some p ->
    (begun targets threshold rows (se_db s) (se_name s) i -> at_milli r (p_x p)) /\
    (~ begun targets threshold rows (se_db s) (se_name s) i ->
       exists r', first_drawn targets threshold rows (se_db s) (se_name s) r' /\ at_milli r' (p_x p)).
Proof.
  intros targets threshold rows s i r p HD Hs Hr Hp. destruct (series_inv targets threshold rows HD) as [ND INV].
  specialize (INV (se_key s)). unfold data_of in INV. rewrite (get_in se_key _ _ ND Hs) in INV.
  cbn [option_map] in INV. destruct INV as (HL & f & rf & (F1 & F2 & F3) & HS).
  rewrite (HS i r Hr) in Hp. injection Hp as <-. destruct (event_of targets threshold r (se_key s)) as [e|] eqn:E.
  - split; [intros _; apply row_date_milli|]. intros NB. elim NB. apply event_of_some in E. destruct E as [E _].
    exists i, r, (snd e). split; [lia|]. split; [exact Hr|exact E].
  - cbn [zero_point p_x]. destruct (Nat.ltb_spec i f) as [K|K]; (split; [intros B|intros NB]).
    + destruct B as (j & r' & l & Hj & Hr' & HDr). pose proof (F3 j r' ltac:(lia) Hr') as N.
      rewrite event_of_none in N. now apply N in HDr.
    + exists rf. split; [|apply row_date_milli]. destruct (nth_error_split _ _ F1) as (a & b & -> & LA).
      exists a, b. split; [reflexivity|].
      destruct (event_of targets threshold rf (se_key s)) as [e|] eqn:E'; [|congruence]. apply event_of_some in E'.
      split; [exists (snd e); apply E'|]. intros r' l Hin HDr. apply In_nth_error in Hin. destruct Hin as (j & Hj).
      assert (J : j < length a) by (apply nth_error_Some; congruence).
      assert (N : event_of targets threshold r' (se_key s) = None).
      { apply (F3 j); [lia|]. now rewrite nth_error_app1. }
      rewrite event_of_none in N. now apply N in HDr.
    + apply row_date_milli.
    + elim NB. destruct (event_of targets threshold rf (se_key s)) as [e|] eqn:E'; [|congruence]. apply event_of_some in E'.
      exists f, rf, (snd e). split; [exact K|]. split; [exact F1|]. apply E'.
Qed.
Example load_series_times_nonvacuous :
    exists s r p, nth_error (load_series [lit "b"] (5 # 1000) ex_rows) 0 = Some s /\ nth_error ex_rows 1 = Some r /\
      nth_error (se_data s) 1 = Some p /\ begun [lit "b"] (5 # 1000) ex_rows (se_db s) (se_name s) 1 /\ p_x p = (101 * 3600000)%Z.
Proof.
  do 3 eexists. split; [vm_compute; reflexivity|]. split; [reflexivity|]. split; [reflexivity|]. split; [|reflexivity].
  exists 0. do 2 eexists. split; [lia|]. split; [reflexivity|]. split; [|split; [now left|]].
  - eexists. split; [left; reflexivity|]. split; [reflexivity|]. split; [left; reflexivity|reflexivity].
  - cbn. unfold Qle. cbn. lia.
Qed.

(** A series beginning in a later row has its first points at that row's time, not at
    their own (finding): LoadPropChartSereies.ts:37-40 fills with one value. *)
Theorem padding_time_refuted :
  ~ (forall targets threshold rows s i r p, Forall distinct_row rows ->
       In s (load_series targets threshold rows) -> nth_error rows i = Some r -> nth_error (se_data s) i = Some p ->
       at_milli r (p_x p)).
Proof.
  intros H. set (ss := load_series [lit "b"] (5 # 1000) ex_rows).
  destruct (nth_error ss 1) as [s|] eqn:E1; [|discriminate]. destruct (nth_error (se_data s) 0) as [p|] eqn:E2; [|injection E1 as <-; discriminate].
  assert (HD : Forall distinct_row ex_rows) by (repeat constructor; cbn; intuition discriminate).
  specialize (H _ _ _ s 0 _ p HD (nth_error_In _ _ E1) eq_refl E2).
  vm_compute in E1. injection E1 as <-. vm_compute in E2. injection E2 as <-. unfold at_milli in H. cbn in H. lia.
Qed.
(** Two loads of one SQL in a row put the rest of the series out of step. *)
Theorem repeated_load_misaligns_refuted :
  ~ (forall targets threshold rows s, In s (load_series targets threshold rows) -> length (se_data s) = length rows).
Proof.
  intros H. set (rows := [ {| tl_time := ex_hour 100; tl_dbs := [ {| dl_name := lit "b"; dl_sqls := [ex_load "x" 1 1 "t"; ex_load "x" 1 1 "u"] |} ] |} ]).
  specialize (H [lit "b"] 0%Q rows). set (ss := load_series [lit "b"] 0 rows) in *. vm_compute in ss.
  specialize (H _ (or_introl eq_refl)). discriminate.
Qed.

(** The rows of the command have one load per database and SQL, so the charts of its
    page are aligned. *)
Theorem command_rows_distinct : forall vadd vlt start end_ avgs (rows : list row),
    hourly vadd vlt start end_ avgs rows -> Forall distinct_row rows.
Proof.
  intros vadd vlt start end_ avgs rows (ss & h0 & _ & _ & _ & R). apply Forall_forall. intros r Hr.
  apply In_nth_error in Hr. destruct Hr as (k & Hk). destruct (R k r Hk) as (_ & g & _ & HC).
  eapply hour_content_distinct; eauto.
Qed.
Definition ex_qavgs : list (@load_avg Q) :=
  [ {| la_db := lit "a"; la_sql := lit "SELECT 1"; la_tok := lit "t1"; la_values := [(1 # 2, ex_hour 100); (1 # 4, ex_hour 101)]%Q |};
    {| la_db := lit "a"; la_sql := lit "SELECT 2"; la_tok := lit "t2"; la_values := [(1 # 8, ex_hour 101)]%Q |};
    {| la_db := lit "a"; la_sql := lit "SELECT 1"; la_tok := lit "t4"; la_values := [(1 # 1, ex_hour 100)]%Q |} ].
Example command_rows_distinct_nonvacuous :
    exists rows, convert_loads Qplus qlt 5 (ex_hour 100) (ex_hour 101) ex_qavgs = Some rows /\
      hourly Qplus qlt (ex_hour 100) (ex_hour 101) ex_qavgs rows /\ map (fun r => length (row_keys r)) rows = [1; 2].
Proof.
  assert (WO : weak_order qlt).
  { split; [intros a b H; apply qlt_lt in H; apply qlt_ge; now apply Qlt_le_weak|].
    intros a b c H1 H2. apply qlt_ge in H1, H2. apply qlt_ge. eapply Qle_trans; eauto. }
  destruct (convert_hourly Qplus qlt 5 (ex_hour 100) (ex_hour 101) ex_qavgs WO) as (rows & E & H); [vm_compute; easy|].
  exists rows. split; [exact E|]. split; [exact H|]. vm_compute in E. injection E as <-. reflexivity.
Qed.

(** ** C81 *)
(** The ranking has one bar for each SQL and database, as high as the sum of its loads
    in per cent, the highest first, and those left out are not higher. *)
Theorem ranking_top : forall keys srt count targets rows,
    (forall l, Permutation (keys l) l) -> is_sort rank_less srt ->
    NoDup (map (fun p => (rk_db p, rk_sql p)) (ranking keys srt count targets rows)) /\
    (forall p, In p (ranking keys srt count targets rows) ->
       In (rk_db p) targets /\ occurs_in rows (rk_db p) (rk_sql p) /\
       (forall q, total_load (rk_db p) (rk_sql p) (table_loads rows) q -> (rk_percent p == 100 * q)%Q) /\
       exists l, In (rk_db p, l) (table_loads rows) /\ sl_sql l = rk_sql p /\ rk_tok p = sl_tok l) /\
    (forall i j a b, i < j -> nth_error (ranking keys srt count targets rows) i = Some a ->
       nth_error (ranking keys srt count targets rows) j = Some b -> (rk_percent b <= rk_percent a)%Q) /\
    (forall db sql, In db targets -> occurs_in rows db sql ->
       In (db, sql) (map (fun p => (rk_db p, rk_sql p)) (ranking keys srt count targets rows)) \/
       (length (ranking keys srt count targets rows) = count /\
        forall p q, In p (ranking keys srt count targets rows) -> total_load db sql (table_loads rows) q -> (100 * q <= rk_percent p)%Q)).
Proof.
  intros keys srt count targets rows HK HS. unfold ranking. rewrite rank_fold.
  destruct (rank_inv (rank_events targets rows)) as [ND INV]. set (ps := fold_left rank_event (rank_events targets rows) []) in *.
  destruct (firstn_largest _ rk_percent srt count (keys ps) HS) as (HL & HO & rest & HP & HR).
  set (res := firstn count (srt (keys ps))) in *.
  assert (PP : Permutation (res ++ rest) ps) by (rewrite HP; apply HK).
  assert (ENT : forall p, In p ps -> In (rk_db p) targets /\ exists l ls,
            map snd (filter (fun e => keq (ev_key e) (rk_key p)) (table_loads rows)) = l :: ls /\
            rk_tok p = sl_tok l /\ (rk_percent p == qsum (l :: ls) * 100)%Q).
  { intros p Hp. specialize (INV (rk_key p)). rewrite (get_in rk_key _ _ ND Hp) in INV. destruct INV as (l & ls & E & T & Q0).
    unfold rk_key in E. rewrite loads_for_rows in E. destruct (includes targets (rk_db p)) eqn:EI; [|discriminate].
    apply includes_in in EI. split; [exact EI|]. exists l, ls. auto. }
  assert (ND2 : NoDup (map rk_key (res ++ rest))).
  { eapply Permutation_NoDup; [|exact ND]. apply Permutation_map. now apply Permutation_sym. }
  assert (PCT : forall p q, In p ps -> total_load (rk_db p) (rk_sql p) (table_loads rows) q -> (rk_percent p == 100 * q)%Q).
  { intros p q Hp Hq. apply total_qsum in Hq. destruct (ENT p Hp) as (_ & l & ls & E & _ & Q0). unfold rk_key in E.
    rewrite E in Hq. rewrite Q0, Hq. ring. }
  split; [|split; [|split]].
  - rewrite map_app in ND2. apply NoDup_app_iff in ND2. apply ND2.
  - intros p Hp. assert (Hps : In p ps) by (eapply Permutation_in; [exact PP|]; apply in_or_app; auto).
    destruct (ENT p Hps) as (HT & l & ls & E & T & Q0). split; [exact HT|].
    assert (OC : In (rk_db p, l) (table_loads rows) /\ sl_sql l = rk_sql p).
    { assert (Hin : In l (map snd (filter (fun e => keq (ev_key e) (rk_key p)) (table_loads rows)))) by (rewrite E; now left).
      apply in_map_iff in Hin. destruct Hin as ([db l'] & E2 & Hin). cbn [snd] in E2. subst l'. apply filter_In in Hin.
      destruct Hin as [Hin K]. apply keq_eq in K. unfold ev_key, rk_key in K. cbn [fst snd] in K. injection K as -> K. auto. }
    split; [exists l; exact OC|]. split; [intros q Hq; now apply PCT|]. exists l. tauto.
  - exact HO.
  - intros db sql HT (l & Hl & HLs). specialize (INV (db, sql)).
    destruct (get rk_key ps (db, sql)) as [p|] eqn:G.
    + apply get_key in G. destruct G as [E Hp]. apply (Permutation_in _ (Permutation_sym PP)) in Hp. apply in_app_or in Hp.
      destruct Hp as [Hp|Hp]; [left; rewrite <- E; now apply (in_map rk_key)|]. right. split.
      * rewrite HL. apply Nat.min_l. destruct (Nat.le_gt_cases count (length (keys ps))) as [K|K]; [exact K|].
        exfalso. pose proof (Permutation_length HP) as LP. rewrite app_length, HL in LP.
        rewrite Nat.min_r in LP by lia. destruct rest; [easy|]. cbn [length] in LP. lia.
      * intros p' q Hp' Hq. pose proof (HR p' p Hp' Hp) as K. injection E as <- <-.
        rewrite <- (PCT p q); [exact K| |exact Hq]. eapply Permutation_in; [exact PP|]. apply in_or_app. auto.
    + exfalso. rewrite loads_for_rows in INV. apply includes_in in HT. rewrite HT in INV.
      assert (Hin : In (db, l) (filter (fun e => keq (ev_key e) (db, sql)) (table_loads rows))).
      { apply filter_In. split; [exact Hl|]. apply keq_eq. unfold ev_key. cbn [fst snd]. congruence. }
      apply (in_map snd) in Hin. rewrite INV in Hin. easy.
Qed.
Example ranking_top_nonvacuous :
    (forall l : list rank, Permutation ((fun x => x) l) l) /\ is_sort rank_less (sort_by rank_less) /\
    map (fun p => (rk_db p, rk_sql p, Qred (rk_percent p))) (ranking (fun x => x) (sort_by rank_less) 2 [lit "b"] ex_rows) =
    [ (lit "b", lit "SELECT 3", 200); (lit "b", lit "SELECT 1", 75) ]%Q /\
    occurs_in ex_rows (lit "b") (lit "SELECT 2").
Proof.
  split; [reflexivity|]. split; [apply q_desc_sort|]. split; [vm_compute; reflexivity|].
  exists (ex_load "SELECT 2" (1 # 1000) (1 # 1000) "t2"). split; [|reflexivity]. cbn. auto.
Qed.

(** ** C82 *)
(** The SQLs shown for a tokenized SQL are the [size] heaviest of those fetched with its
    id, and there is a TypeError exactly if none was fetched. *)
Theorem raw_loads_picked : forall srt rows size tok, is_sort raw_less srt ->
    (pick_raw_loads srt (create_raw_loads rows) size tok = Panic <-> forall db l, In (db, l) (table_loads rows) -> sl_tok l <> tok) /\
    (forall msg, pick_raw_loads srt (create_raw_loads rows) size tok <> Err msg) /\
    (forall got, pick_raw_loads srt (create_raw_loads rows) size tok = Ok got ->
       exists every same, map (fun x => (rw_db x, rw_load x)) every = table_loads rows /\ Forall (raw_of rows) every /\
         exactly (fun x => sl_tok (rw_load x) = tok) every same /\ largest (fun x => sl_max (rw_load x)) size same got).
Proof.
  intros srt rows size tok HS. unfold pick_raw_loads. rewrite create_raw_fold.
  pose proof (raw_fold (all_raw rows) [] tok) as RF. cbn [find] in RF.
  set (same := filter (fun x => seqb (sl_tok (rw_load x)) tok) (all_raw rows)) in *.
  assert (TL : map (fun x => (rw_db x, rw_load x)) (all_raw rows) = table_loads rows).
  { unfold all_raw, table_loads. clear. induction rows as [|r rows IH]; [reflexivity|]. cbn [flat_map]. rewrite map_app, IH. f_equal.
    induction (tl_dbs r) as [|d ds IHd]; [reflexivity|]. cbn [flat_map]. rewrite map_app, IHd, map_map. reflexivity. }
  split; [|split].
  - destruct (find _ _) as [e|].
    + split; [discriminate|]. intros H. exfalso. destruct same as [|x same'] eqn:E; [discriminate|].
      assert (Hx : In x same) by (rewrite E; now left). apply filter_In in Hx. destruct Hx as [Hx K]. apply seqb_eq in K.
      apply (H (rw_db x) (rw_load x)); [|exact K]. rewrite <- TL. apply (in_map (fun x => (rw_db x, rw_load x))). exact Hx.
    + split; [|reflexivity]. intros _ db l Hin <-. rewrite <- TL in Hin. apply in_map_iff in Hin. destruct Hin as (x & E & Hx).
      injection E as <- <-. assert (Hs : In x same) by (apply filter_In; split; [exact Hx|apply seqb_refl]).
      destruct same; [easy|discriminate].
  - intros msg. destruct (find _ _); discriminate.
  - intros got H. destruct (find _ _) as [e|]; [|discriminate]. injection H as <-.
    exists (all_raw rows), same. split; [exact TL|]. split; [|split].
    + apply Forall_forall. intros x Hx. unfold all_raw in Hx. apply in_flat_map in Hx. destruct Hx as (r & Hr & Hx).
      apply in_flat_map in Hx. destruct Hx as (d & Hd & Hx). apply in_map_iff in Hx. destruct Hx as (l & <- & Hl).
      exists r, d. cbn [rw_db rw_load rw_date]. split; [exact Hr|]. split; [exact Hd|]. split; [reflexivity|]. split; [exact Hl|].
      apply row_date_milli.
    + unfold same. generalize (all_raw rows). clear. induction l as [|x l IH]; cbn [filter]; [constructor|].
      destruct (seqb (sl_tok (rw_load x)) tok) eqn:E.
      * constructor; [now apply seqb_eq|exact IH].
      * constructor; [|exact IH]. intros K. apply seqb_eq in K. congruence.
    + assert (E : snd e = same) by (destruct same; congruence). rewrite E.
      apply (firstn_largest _ (fun x => sl_max (rw_load x)) srt size same HS).
Qed.
Example raw_loads_picked_nonvacuous : is_sort raw_less (sort_by raw_less) /\
    (exists l, pick_raw_loads (sort_by raw_less) (create_raw_loads ex_rows) 2 (lit "t1") = Ok l /\
       map (fun x => (rw_db x, sl_sql (rw_load x), sl_max (rw_load x))) l =
       [ (lit "b", lit "SELECT 1", 1 # 2); (lit "a", lit "SELECT 1", 1 # 4) ]%Q) /\
    pick_raw_loads (sort_by raw_less) (create_raw_loads ex_rows) 2 (lit "t9") = Panic.
Proof.
  split; [apply (q_desc_sort _ (fun x => sl_max (rw_load x)))|]. split; [|reflexivity]. eexists. split; [vm_compute; reflexivity|reflexivity].
Qed.

(** The id of a fetched SQL can be missing from the page (finding): the conversion keeps
    one id for each SQL text of a database and hour.  Texts are cut to 500 bytes by AWS, so
    two SQLs can share one. *)
Theorem fetched_id_known_refuted :
  ~ (forall start end_ avgs fuel rows srt size a v,
       convert_loads Qplus qlt fuel start end_ avgs = Some rows -> is_sort raw_less srt ->
       In a avgs -> In v (la_values a) -> t_ns start = t_ns (snd v) -> t_loc start = UTC -> t_loc (snd v) = UTC ->
       pick_raw_loads srt (create_raw_loads rows) size (la_tok a) <> Panic).
Proof.
  intros H.
  refine (H (ex_hour 100) (ex_hour 101) ex_qavgs 5 _ (sort_by raw_less) 10 _ _ ltac:(vm_compute; reflexivity)
            (q_desc_sort _ (fun x => sl_max (rw_load x))) (or_intror (or_intror (or_introl eq_refl))) (or_introl eq_refl) eq_refl eq_refl eq_refl _).
  vm_compute. reflexivity.
Qed.

(** ** C83 *)
(** The databases offered are those of the rows, each once, in order of their names. *)
Theorem databases_listed : forall srt rows, is_sort sltb srt ->
    all_databases srt None = [] /\
    StronglySorted name_before (all_databases srt (Some rows)) /\
    forall db, In db (all_databases srt (Some rows)) <-> exists r d, In r rows /\ In d (tl_dbs r) /\ dl_name d = db.
Proof.
  intros srt rows HS. split; [reflexivity|]. unfold all_databases. set (l := concat (map (fun r => map dl_name (tl_dbs r)) rows)).
  destruct (uniq_spec l) as [ND IN]. destruct (HS (uniq l)) as [P SB]. split.
  - assert (ND2 : NoDup (srt (uniq l))) by (eapply Permutation_NoDup; [apply Permutation_sym; exact P|exact ND]).
    clear P. revert ND2. clear IN ND. generalize dependent (srt (uniq l)). intros names SB. induction SB as [|x xs HF SB IH]; intros ND2; [constructor|]. inversion ND2 as [|y z N1 N2]; subst.
    constructor; [now apply IH|]. rewrite Forall_forall in *. intros y Hy. specialize (HF y Hy).
    destruct (sltb x y) eqn:E; [now apply sltb_before|]. elim N1. assert (x = y) as -> by (apply sltb_total; auto). exact Hy.
  - intros db. split.
    + intros H. apply (Permutation_in _ P) in H. apply IN in H. unfold l in H. apply in_concat in H. destruct H as (ds & H1 & H2).
      apply in_map_iff in H1. destruct H1 as (r & <- & Hr). apply in_map_iff in H2. destruct H2 as (d & E & Hd). eauto.
    + intros (r & d & Hr & Hd & <-). apply (Permutation_in _ (Permutation_sym P)). apply IN. unfold l. apply in_concat.
      exists (map dl_name (tl_dbs r)). split; [apply (in_map (fun r => map dl_name (tl_dbs r))); exact Hr|now apply in_map].
Qed.
Example databases_listed_nonvacuous : is_sort sltb (sort_by sltb) /\
    all_databases (sort_by sltb) (Some ex_rows) = [lit "a"; lit "b"] /\
    map se_db (opening_series (sort_by sltb) ex_rows) = [lit "a"].
Proof.
  split; [|split; vm_compute; reflexivity]. apply sort_by_is_sort; [exact sltb_asym|].
  intros a b c H1 H2. destruct (sltb a c) eqn:E; [|reflexivity]. destruct (sltb b a) eqn:E2.
  - rewrite (sltb_trans _ _ _ E2 E) in H2. discriminate.
  - pose proof (sltb_total _ _ H1 E2). subst b. congruence.
Qed.
(** The page opens with the first database by name, and draws its SQLs that reach half a
    per cent. *)
Theorem opening_chart : forall srt rows, is_sort sltb srt -> Forall distinct_row rows ->
    forall db sql, (exists s, In s (opening_series srt rows) /\ se_db s = db /\ se_name s = sql) <->
      (exists r l, In r rows /\ row_load r db sql l /\ (1 # 200 <= sl_max l)%Q) /\
      (forall r d, In r rows -> In d (tl_dbs r) -> dl_name d = db \/ name_before db (dl_name d)).
Proof.
  intros srt rows HS HD db sql. unfold opening_series.
  destruct (databases_listed srt rows HS) as (_ & SS & IN).
  destruct (load_series_aligned (first_database (all_databases srt (Some rows))) (5 # 1000) rows HD) as (_ & IFF & _).
  rewrite IFF. clear IFF. destruct (all_databases srt (Some rows)) as [|d0 ds] eqn:E; cbn [first_database].
  - split.
    + intros (r & l & _ & _ & [] & _).
    + intros ((r & l & Hr & (d & Hd & <- & _) & _) & _). assert (K : In (dl_name d) []) by (apply IN; eauto). easy.
  - inversion SS as [|x y SS1 HF]; subst. rewrite Forall_forall in HF. split.
    + intros (r & l & Hr & HR & [<-|[]] & HQ). split; [exists r, l; split; [exact Hr|]; split; [exact HR|]; lra|].
      intros r' d Hr' Hd. assert (K : In (dl_name d) (d0 :: ds)) by (apply IN; eauto). destruct K as [->|K]; [now left|right; auto].
    + intros ((r & l & Hr & HR & HQ) & MIN). exists r, l. split; [exact Hr|]. split; [exact HR|]. split; [|lra]. left.
      destruct HR as (d & Hd & <- & _). assert (K : In (dl_name d) (d0 :: ds)) by (apply IN; eauto).
      destruct K as [->|K]; [reflexivity|]. apply HF in K.
      destruct (proj1 (IN d0) (or_introl eq_refl)) as (r' & d' & Hr' & Hd' & <-).
      destruct (MIN r' d' Hr' Hd') as [->|B]; [reflexivity|]. elim (before_asym _ _ K B).
Qed.
Example opening_chart_nonvacuous : is_sort sltb (sort_by sltb) /\ Forall distinct_row ex_rows /\
    exists r l, In r ex_rows /\ row_load r (lit "a") (lit "SELECT 1") l /\ (1 # 200 <= sl_max l)%Q.
Proof.
  split; [apply databases_listed_nonvacuous|]. split; [apply load_series_aligned_nonvacuous|].
  do 2 eexists. split; [left; reflexivity|]. split.
  - eexists. split; [right; left; reflexivity|]. split; [reflexivity|]. split; [left; reflexivity|reflexivity].
  - cbn. unfold Qle. cbn. lia.
Qed.

Print Assumptions load_series_aligned.
Print Assumptions load_series_times.
Print Assumptions padding_time_refuted.
Print Assumptions repeated_load_misaligns_refuted.
Print Assumptions command_rows_distinct.
Print Assumptions ranking_top.
Print Assumptions raw_loads_picked.
Print Assumptions fetched_id_known_refuted.
Print Assumptions databases_listed.
Print Assumptions opening_chart.
