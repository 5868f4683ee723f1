(** What the parsers report about arbitrary lines stands in the lines. *)
From Coq Require Import String List NArith ZArith QArith Bool Lia Arith.
From Verif Require Import Base Dec Regex RegexInv ExplainTree ExplainSpec ExplainLineSpec
  ExplainLineProofs ExplainMatchProofs.
From Verif Require MysqlExplain PgExplain.
Import ListNotations.
Local Open Scope nat_scope.

Lemma number_like_num : forall w, number_like w <-> forallb is_num w = true /\ w <> [].
Proof.
  intros w. unfold number_like. rewrite forallb_forall, Forall_forall. unfold is_num.
  split; intros [H1 H2]; split; auto; intros c Hc.
  - apply orb_true_iff. rewrite N.eqb_eq. auto.
  - apply H1 in Hc. apply orb_true_iff in Hc. rewrite N.eqb_eq in Hc. exact Hc.
Qed.
Lemma count_like_digits : forall w, count_like w <-> forallb is_digit w = true /\ w <> [].
Proof. intros w. unfold count_like. rewrite digits_forallb. tauto. Qed.

(** Captured runs. *)
Lemma M_grp_plus_inv : forall n g p i s c i2 s2 c2, M (Grp n (plus g (Chr p))) i s c i2 s2 c2 ->
    exists w, s = w ++ s2 /\ i2 = i + length w /\ c2 = (n, w) :: c /\ forallb p w = true /\ w <> [].
Proof.
  intros n g p i s c i2 s2 c2 H. apply M_grp_inv in H. destruct H as (w & c1 & H & -> & -> & ->).
  apply M_plus_inv in H. destruct H as (v & E & _ & -> & Hv & Hne). apply app_inv_tail in E. subst v.
  exists w. auto.
Qed.
Lemma M_grp_plus_intro : forall n g p w i s c, forallb p w = true -> w <> [] ->
    M (Grp n (plus g (Chr p))) i (w ++ s) c (i + length w) s ((n, w) :: c).
Proof. intros. apply M_grp_intro. now apply M_plus_intro. Qed.

Ltac cat_inv H := apply M_cat_inv in H;
  let i1 := fresh "i" in let s1 := fresh "s" in let c1 := fresh "c" in let H1 := fresh "HM" in
  destruct H as (i1 & s1 & c1 & H1 & H).

Lemma actual_caps : forall line m, find MysqlExplain.actual_reg line = Some m ->
    exists a, actual_shape a /\ occurs (actual_text a) line /\
      m_caps m = [(4, a_loops a); (3, a_rows a); (2, a_avg a); (1, a_first a)].
Proof.
  intros line m H. apply find_sound in H.
  destruct H as (w & s1 & i' & c' & -> & HM & _ & Hc & _ & _).
  unfold MysqlExplain.actual_reg in HM. cbn [cats] in HM.
  cat_inv HM. apply M_str_inv in HM0. destruct HM0 as (-> & _ & ->).
  cat_inv HM. apply M_grp_plus_inv in HM0. destruct HM0 as (w1 & -> & _ & -> & B1 & N1).
  cat_inv HM. apply M_str_inv in HM0. destruct HM0 as (-> & _ & ->).
  cat_inv HM. apply M_grp_plus_inv in HM0. destruct HM0 as (w2 & -> & _ & -> & B2 & N2).
  cat_inv HM. apply M_str_inv in HM0. destruct HM0 as (-> & _ & ->).
  cat_inv HM. apply M_grp_plus_inv in HM0. destruct HM0 as (w3 & -> & _ & -> & B3 & N3).
  cat_inv HM. apply M_str_inv in HM0. destruct HM0 as (-> & _ & ->).
  cat_inv HM. apply M_grp_plus_inv in HM0. destruct HM0 as (w4 & -> & _ & -> & B4 & N4).
  apply M_ch_inv in HM. destruct HM as (-> & _ & ->).
  exists (Build_actual w1 w2 w3 w4). split; [|split].
  - unfold actual_shape. cbn [a_first a_avg a_rows a_loops]. rewrite !number_like_num, !count_like_digits. auto.
  - exists w, (m_rest m). unfold actual_text. cbn [a_first a_avg a_rows a_loops]. rewrite <- !app_assoc. reflexivity.
  - exact Hc.
Qed.
Lemma actual_silent : forall line, find MysqlExplain.actual_reg line = None ->
    forall a, actual_shape a -> ~ occurs (actual_text a) line.
Proof.
  intros line H a (S1 & S2 & S3 & S4) (u & v & ->).
  apply number_like_num in S1, S2. apply count_like_digits in S3, S4.
  destruct S1, S2, S3, S4.
  eapply (proj1 (find_none _ _) H u (actual_text a ++ v)); [reflexivity|].
  unfold MysqlExplain.actual_reg, actual_text. cbn [cats]. rewrite <- !app_assoc.
  eapply M_Cat; [apply M_str_intro|]. eapply M_Cat; [apply M_grp_plus_intro; eauto|].
  eapply M_Cat; [apply M_str_intro|]. eapply M_Cat; [apply M_grp_plus_intro; eauto|].
  eapply M_Cat; [apply M_str_intro|]. eapply M_Cat; [apply M_grp_plus_intro; eauto|].
  eapply M_Cat; [apply M_str_intro|]. eapply M_Cat; [apply M_grp_plus_intro; eauto|].
  apply M_ch_intro.
Qed.

Lemma float_of_cases : forall w line, match float_of w line with
    | Ok q => decimal w q /\ fits q
    | Err _ => ~ exists q, decimal w q /\ fits q
    | Panic => False
    end.
Proof.
  intros w line. unfold float_of, parse_failed. destruct (parse_float w) as [q|] eqn:E.
  - apply parse_float_iff. exists q. split; auto. reflexivity.
  - intros (q & H). apply parse_float_iff in H. destruct H as (q' & H & _). congruence.
Qed.
Lemma int_of_cases : forall w shown line, match int_of w shown line with
    | Ok z => count w z
    | Err _ => ~ exists z, count w z
    | Panic => False
    end.
Proof.
  intros w shown line. unfold int_of, parse_failed. destruct (parse_int64 w) as [z|] eqn:E.
  - now apply parse_count.
  - intros (z & H). apply parse_count in H. congruence.
Qed.

Theorem actual_reads : forall line,
    match MysqlExplain.parse_actual line with
    | Ok (None, None, None, None) => forall a, actual_shape a -> ~ occurs (actual_text a) line
    | Ok (Some f, Some v, Some r, Some l) => exists a, occurs (actual_text a) line /\ actual_says decimal a f v r l
    | Ok _ => False
    | Err _ => exists a, actual_shape a /\ occurs (actual_text a) line /\
                 ~ exists f v r l, actual_says decimal a f v r l
    | Panic => False
    end.
Proof.
  intros line. unfold MysqlExplain.parse_actual.
  destruct (find MysqlExplain.actual_reg line) as [m|] eqn:E; [|now apply actual_silent].
  destruct (actual_caps _ _ E) as (a & HS & HO & HC). rewrite HC. unfold capd. simpl.
  pose proof (float_of_cases (a_first a) line) as H1. destruct (float_of (a_first a) line) as [f|e|]; [| |elim H1].
  2:{ exists a. split; auto. split; auto. intros (f & v & r & l & K1 & K2 & _). apply H1. eauto. }
  cbn [obind]. pose proof (float_of_cases (a_avg a) line) as H2. destruct (float_of (a_avg a) line) as [v|e|]; [| |elim H2].
  2:{ exists a. split; auto. split; auto. intros (f' & v & r & l & _ & _ & K1 & K2 & _). apply H2. eauto. }
  cbn [obind]. pose proof (int_of_cases (a_rows a) (a_rows a) line) as H3. destruct (int_of (a_rows a) (a_rows a) line) as [r|e|]; [| |elim H3].
  2:{ exists a. split; auto. split; auto. intros (f' & v' & r & l & _ & _ & _ & _ & K1 & _). apply H3. eauto. }
  cbn [obind]. pose proof (int_of_cases (a_loops a) (a_loops a) line) as H4. destruct (int_of (a_loops a) (a_loops a) line) as [l|e|]; [| |elim H4].
  2:{ exists a. split; auto. split; auto. intros (f' & v' & r' & l & _ & _ & _ & _ & _ & K1). apply H4. eauto. }
  cbn [obind]. exists a. split; auto. destruct H1, H2. repeat (split; auto).
Qed.

(** ** MySQL estimates *)
Lemma mysql_estimate_caps : forall line m, find MysqlExplain.estimation_reg line = Some m ->
    exists e, mysql_estimate_shape e /\ occurs (mysql_estimate_text e) line /\
      capd (m_caps m) 1 = match e_init e with Some w => w | None => e_cost e end /\
      capd (m_caps m) 2 = match e_init e with Some _ => lit ".." ++ e_cost e | None => [] end /\
      capd (m_caps m) 3 = match e_init e with Some _ => e_cost e | None => [] end /\
      capd (m_caps m) 4 = match e_rows e with Some w => lit " rows=" ++ w | None => [] end /\
      capd (m_caps m) 5 = match e_rows e with Some w => w | None => [] end.
Proof.
  intros line m H. apply find_sound in H.
  destruct H as (w & s1 & i' & c' & -> & HM & _ & Hc & _ & _).
  unfold MysqlExplain.estimation_reg in HM. cbn [cats] in HM.
  cat_inv HM. apply M_str_inv in HM0. destruct HM0 as (-> & _ & ->).
  cat_inv HM. apply M_grp_plus_inv in HM0. destruct HM0 as (w1 & -> & _ & -> & B1 & N1).
  apply M_cat_inv in HM. destruct HM as (j1 & t1 & k1 & HI & HM).
  apply M_cat_inv in HM. destruct HM as (j2 & t2 & k2 & HR & HM).
  apply M_ch_inv in HM. destruct HM as (-> & _ & Hfin).
  assert (I : exists o, match o with Some v => number_like v | None => True end /\
      s0 = match o with Some v => lit ".." ++ v | None => [] end ++ t1 /\
      k1 = match o with Some v => (2, lit ".." ++ v) :: (3, v) :: [(1, w1)] | None => [(1, w1)] end).
  { apply M_opt_inv in HI. destruct HI as [HI|(_ & -> & ->)].
    - apply M_grp_inv in HI. destruct HI as (g & c4 & HI & Eg & _ & ->).
      cat_inv HI. apply M_str_inv in HM. destruct HM as (-> & _ & ->).
      apply M_grp_plus_inv in HI. destruct HI as (v & -> & _ & -> & B2 & N2).
      exists (Some v). rewrite app_assoc in Eg. apply app_inv_tail in Eg. subst g.
      split; [now apply number_like_num|]. split; [now rewrite app_assoc|reflexivity].
    - exists None. auto. }
  destruct I as (o & HO & -> & ->).
  assert (RR : exists o4, match o4 with Some v => count_like v | None => True end /\
      t1 = match o4 with Some v => lit " rows=" ++ v | None => [] end ++ 41%N :: m_rest m /\
      k2 = match o4 with Some v => (4, lit " rows=" ++ v) :: (5, v) ::
             match o with Some v => (2, lit ".." ++ v) :: (3, v) :: [(1, w1)] | None => [(1, w1)] end
           | None => match o with Some v => (2, lit ".." ++ v) :: (3, v) :: [(1, w1)] | None => [(1, w1)] end end).
  { apply M_opt_inv in HR. destruct HR as [HR|(_ & -> & ->)].
    - apply M_grp_inv in HR. destruct HR as (g & c4 & HR & Eg & _ & ->).
      cat_inv HR. apply M_str_inv in HM. destruct HM as (-> & _ & ->).
      apply M_grp_plus_inv in HR. destruct HR as (v & -> & _ & -> & B2 & N2).
      exists (Some v). rewrite app_assoc in Eg. apply app_inv_tail in Eg. subst g.
      split; [now apply count_like_digits|]. split; [now rewrite app_assoc|reflexivity].
    - exists None. auto. }
  destruct RR as (o4 & HO4 & -> & ->).
  assert (HW : number_like w1) by now apply number_like_num.
  rewrite Hc, Hfin.
  exists (match o with
          | Some v => Build_mysql_estimate (Some w1) v o4
          | None => Build_mysql_estimate None w1 o4
          end).
  split; [|split].
  - unfold mysql_estimate_shape. destruct o; cbn [e_init e_cost e_rows]; auto.
  - exists w, (m_rest m). unfold mysql_estimate_text.
    destruct o, o4; cbn [e_init e_cost e_rows]; rewrite <- ?app_assoc; reflexivity.
  - destruct o, o4; unfold capd; cbn [e_init e_cost e_rows]; simpl; auto.
Qed.
Lemma mysql_estimate_silent : forall line, find MysqlExplain.estimation_reg line = None ->
    forall e, mysql_estimate_shape e -> ~ occurs (mysql_estimate_text e) line.
Proof.
  intros line H e (S1 & S2 & S3) (u & v & ->).
  apply number_like_num in S2. destruct S2 as [B2 N2].
  assert (HR : forall i c, exists i' c', M (Cat (opt (Grp 4 (Cat (str (lit " rows=")) (Grp 5 (plus true digit))))) (ch 41)) i
      (match e_rows e with Some n => lit " rows=" ++ n | None => [] end ++ lit ")" ++ v) c i' v c').
  { intros i c. destruct (e_rows e) as [n|].
    - apply count_like_digits in S3. destruct S3. eexists _, _.
      eapply M_Cat; [|apply M_ch_intro]. apply M_AltL. 
      replace ((lit " rows=" ++ n) ++ lit ")" ++ v) with ((lit " rows=" ++ n) ++ 41%N :: v) by reflexivity.
      apply M_grp_intro. rewrite <- app_assoc. eapply M_Cat; [apply M_str_intro|].
      rewrite app_length, Nat.add_assoc. apply M_grp_plus_intro; auto.
    - eexists _, _. eapply M_Cat; [apply M_AltR; apply M_Eps|]. apply M_ch_intro. }
  assert (HK : exists i' c', M (cats [str (lit "(cost="); Grp 1 (plus false num);
      opt (Grp 2 (Cat (str (lit "..")) (Grp 3 (plus false num))));
      opt (Grp 4 (Cat (str (lit " rows=")) (Grp 5 (plus true digit)))); ch 41])
      (length u) (mysql_estimate_text e ++ v) [] i' v c').
  { unfold mysql_estimate_text. cbn [cats]. rewrite <- !app_assoc. destruct (e_init e) as [w|].
    - apply number_like_num in S1. destruct S1 as [B1 N1]. rewrite <- !app_assoc.
      destruct (HR (length u + length (lit "(cost=") + length w + length (lit ".." ++ e_cost e))
                  ((2, lit ".." ++ e_cost e) :: (3, e_cost e) :: [(1, w)])) as (i' & c' & HR').
      exists i', c'. eapply M_Cat; [apply M_str_intro|].
      eapply M_Cat; [apply M_grp_plus_intro; eauto|].
      eapply M_Cat; [|exact HR']. apply M_AltL. rewrite app_assoc. apply M_grp_intro. rewrite <- app_assoc.
      eapply M_Cat; [apply M_str_intro|]. rewrite app_length, Nat.add_assoc. apply M_grp_plus_intro; auto.
    - destruct (HR (length u + length (lit "(cost=") + length (e_cost e)) [(1, e_cost e)]) as (i' & c' & HR').
      exists i', c'. eapply M_Cat; [apply M_str_intro|]. cbn [app].
      eapply M_Cat; [apply M_grp_plus_intro; eauto|].
      eapply M_Cat; [apply M_AltR; apply M_Eps|]. exact HR'. }
  destruct HK as (i' & c' & HK). revert HK. apply (proj1 (find_none _ _) H). reflexivity.
Qed.

Theorem mysql_estimate_reads : forall line,
    match MysqlExplain.parse_estimation line with
    | Ok (None, None, None) => forall e, mysql_estimate_shape e -> ~ occurs (mysql_estimate_text e) line
    | Ok (oi, Some c, r) => exists e, occurs (mysql_estimate_text e) line /\ mysql_estimate_says decimal e oi c r
    | Ok _ => False
    | Err _ => exists e, mysql_estimate_shape e /\ occurs (mysql_estimate_text e) line /\
                 ~ exists i c r, mysql_estimate_says decimal e i c r
    | Panic => False
    end.
Proof.
  intros line. unfold MysqlExplain.parse_estimation.
  destruct (find MysqlExplain.estimation_reg line) as [m|] eqn:E; [|now apply mysql_estimate_silent].
  destruct (mysql_estimate_caps _ _ E) as (e & HS & HO & C1 & C2 & C3 & C4 & C5).
  cbv zeta. rewrite C1, C2, C3, C4, C5. clear C1 C2 C3 C4 C5 E.
  set (costs := match match e_init e with Some _ => lit ".." ++ e_cost e | None => [] end with [] => _ | _ => _ end).
  set (rows := match match e_rows e with Some w => lit " rows=" ++ w | None => [] end with [] => _ | _ => _ end).
  assert (HCs : match costs with
                | Ok (oi, Some c) => decimal (e_cost e) c /\ fits c /\
                    match e_init e, oi with Some w, Some q => decimal w q /\ fits q | None, None => True | _, _ => False end
                | Ok _ => False
                | Err _ => ~ exists i c r, mysql_estimate_says decimal e i c r
                | Panic => False
                end).
  { subst costs. unfold mysql_estimate_says. destruct (e_init e) as [w|].
    - change (lit ".." ++ e_cost e) with (46 :: 46 :: e_cost e)%N. cbv iota.
      pose proof (float_of_cases w line) as H1.
      destruct (float_of w line) as [i|x|]; cbn [obind]; [| |exact H1].
      2:{ intros (i & c & r' & K & _). destruct i; [|tauto]. apply H1. eauto. }
      pose proof (float_of_cases (e_cost e) line) as H2.
      destruct (float_of (e_cost e) line) as [c|x|]; cbn [obind]; [| |exact H2].
      + tauto.
      + intros (i' & c & r' & _ & K1 & K2 & _). apply H2. eauto.
    - pose proof (float_of_cases (e_cost e) line) as H2.
      destruct (float_of (e_cost e) line) as [c|x|]; cbn [obind]; [| |exact H2].
      + tauto.
      + intros (i' & c & r' & _ & K1 & K2 & _). apply H2. eauto. }
  assert (HRs : match rows with
                | Ok r => match e_rows e, r with Some w, Some z => count w z | None, None => True | _, _ => False end
                | Err _ => ~ exists i c r, mysql_estimate_says decimal e i c r
                | Panic => False
                end).
  { subst rows. unfold mysql_estimate_says. destruct (e_rows e) as [w|]; [|exact I].
    change (lit " rows=" ++ w) with (32 :: 114 :: 111 :: 119 :: 115 :: 61 :: w)%N. cbv iota.
    pose proof (int_of_cases w (32 :: 114 :: 111 :: 119 :: 115 :: 61 :: w)%N line) as H1.
    destruct (int_of w (32 :: 114 :: 111 :: 119 :: 115 :: 61 :: w)%N line) as [z|x|]; cbn [obind]; auto.
    intros (i & c & r & _ & _ & _ & K). destruct r; [|tauto]. apply H1. eauto. }
  clearbody costs rows. destruct costs as [[oi [c|]]|x|]; cbn [obind]; try tauto.
  2:{ exists e. tauto. }
  destruct rows as [r|x|]; cbn [obind fst snd]; [| |exact HRs].
  2:{ exists e. tauto. }
  assert (exists e, occurs (mysql_estimate_text e) line /\ mysql_estimate_says decimal e oi c r).
  { exists e. split; auto. unfold mysql_estimate_says. tauto. }
  destruct oi; auto.
Qed.

(** ** PostgreSQL estimates *)
Lemma pg_estimate_caps : forall line m, find PgExplain.estimation_reg line = Some m ->
    exists e, pg_estimate_shape e /\ occurs (pg_estimate_text e) line /\
      m_caps m = [(4, g_width e); (3, g_rows e); (2, g_cost e); (1, g_init e)].
Proof.
  intros line m H. apply find_sound in H.
  destruct H as (w & s1 & i' & c' & -> & HM & _ & Hc & _ & _).
  unfold PgExplain.estimation_reg in HM. cbn [cats] in HM.
  cat_inv HM. apply M_str_inv in HM0. destruct HM0 as (-> & _ & ->).
  cat_inv HM. apply M_grp_plus_inv in HM0. destruct HM0 as (w1 & -> & _ & -> & B1 & N1).
  cat_inv HM. apply M_str_inv in HM0. destruct HM0 as (-> & _ & ->).
  cat_inv HM. apply M_grp_plus_inv in HM0. destruct HM0 as (w2 & -> & _ & -> & B2 & N2).
  cat_inv HM. apply M_str_inv in HM0. destruct HM0 as (-> & _ & ->).
  cat_inv HM. apply M_grp_plus_inv in HM0. destruct HM0 as (w3 & -> & _ & -> & B3 & N3).
  cat_inv HM. apply M_str_inv in HM0. destruct HM0 as (-> & _ & ->).
  cat_inv HM. apply M_grp_plus_inv in HM0. destruct HM0 as (w4 & -> & _ & -> & B4 & N4).
  apply M_ch_inv in HM. destruct HM as (-> & _ & ->).
  exists (Build_pg_estimate w1 w2 w3 w4). split; [|split].
  - unfold pg_estimate_shape. cbn [g_init g_cost g_rows g_width]. rewrite !number_like_num, !count_like_digits. auto.
  - exists w, (m_rest m). unfold pg_estimate_text. cbn [g_init g_cost g_rows g_width]. rewrite <- !app_assoc. reflexivity.
  - exact Hc.
Qed.
Lemma pg_estimate_silent : forall line, find PgExplain.estimation_reg line = None ->
    forall a, pg_estimate_shape a -> ~ occurs (pg_estimate_text a) line.
Proof.
  intros line H a (S1 & S2 & S3 & S4) (u & v & ->).
  apply number_like_num in S1, S2. apply count_like_digits in S3, S4.
  destruct S1, S2, S3, S4.
  eapply (proj1 (find_none _ _) H u (pg_estimate_text a ++ v)); [reflexivity|].
  unfold PgExplain.estimation_reg, pg_estimate_text. cbn [cats]. rewrite <- !app_assoc.
  eapply M_Cat; [apply M_str_intro|]. eapply M_Cat; [apply M_grp_plus_intro; eauto|].
  eapply M_Cat; [apply M_str_intro|]. eapply M_Cat; [apply M_grp_plus_intro; eauto|].
  eapply M_Cat; [apply M_str_intro|]. eapply M_Cat; [apply M_grp_plus_intro; eauto|].
  eapply M_Cat; [apply M_str_intro|]. eapply M_Cat; [apply M_grp_plus_intro; eauto|].
  apply M_ch_intro.
Qed.
Theorem pg_estimate_reads : forall line,
    match PgExplain.parse_estimation line with
    | Ok (None, None, None, None) => forall a, pg_estimate_shape a -> ~ occurs (pg_estimate_text a) line
    | Ok (Some i, Some c, Some r, Some w) => exists a, occurs (pg_estimate_text a) line /\ pg_estimate_says decimal a i c r w
    | Ok _ => False
    | Err _ => exists a, pg_estimate_shape a /\ occurs (pg_estimate_text a) line /\
                 ~ exists i c r w, pg_estimate_says decimal a i c r w
    | Panic => False
    end.
Proof.
  intros line. unfold PgExplain.parse_estimation.
  destruct (find PgExplain.estimation_reg line) as [m|] eqn:E; [|now apply pg_estimate_silent].
  destruct (pg_estimate_caps _ _ E) as (a & HS & HO & HC). rewrite HC. unfold capd. simpl.
  pose proof (float_of_cases (g_init a) line) as H1. destruct (float_of (g_init a) line) as [f|e|]; [| |elim H1].
  2:{ exists a. split; auto. split; auto. intros (f & v & r & l & K1 & K2 & _). apply H1. eauto. }
  cbn [obind]. pose proof (float_of_cases (g_cost a) line) as H2. destruct (float_of (g_cost a) line) as [v|e|]; [| |elim H2].
  2:{ exists a. split; auto. split; auto. intros (f' & v & r & l & _ & _ & K1 & K2 & _). apply H2. eauto. }
  cbn [obind]. pose proof (int_of_cases (g_rows a) (g_rows a) line) as H3. destruct (int_of (g_rows a) (g_rows a) line) as [r|e|]; [| |elim H3].
  2:{ exists a. split; auto. split; auto. intros (f' & v' & r & l & _ & _ & _ & _ & K1 & _). apply H3. eauto. }
  cbn [obind]. pose proof (int_of_cases (g_width a) (g_width a) line) as H4. destruct (int_of (g_width a) (g_width a) line) as [l|e|]; [| |elim H4].
  2:{ exists a. split; auto. split; auto. intros (f' & v' & r' & l & _ & _ & _ & _ & _ & K1). apply H4. eauto. }
  cbn [obind]. exists a. split; auto. destruct H1, H2. repeat (split; auto).
Qed.
