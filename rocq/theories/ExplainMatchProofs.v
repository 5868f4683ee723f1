(** What the expressions for costs and times capture in printed lines, and which
    lines they refuse. *)
From Coq Require Import String List NArith ZArith QArith Bool Lia Arith.
From Verif Require Import Base Dec Regex RegexInv ExplainTree ExplainSpec ExplainLineSpec
  ExplainLineProofs.
From Verif Require MysqlExplain PgExplain.
Import ListNotations.
Local Open Scope nat_scope.

Lemma digit_num : forall c, is_digit c = true -> is_num c = true.
Proof. intros c H. unfold is_num. now rewrite H. Qed.
Lemma digits_num : forall w, digits w -> forallb is_num w = true.
Proof.
  intros w H. apply forallb_forall. intros c Hc. apply digit_num.
  unfold digits in H. rewrite Forall_forall in H. auto.
Qed.
Lemma numeral_num : forall w q, numeral w q -> forallb is_num w = true /\ w <> [].
Proof.
  intros w q (a & b & Ha & Hb & Hne & Hw & _). destruct Hw as [[-> ->]|[-> Hbn]].
  - split; auto using digits_num.
  - split; [|destruct a; simpl; congruence]. rewrite forallb_app. cbn [forallb].
    rewrite !digits_num by auto. reflexivity.
Qed.

(** No tail of a numeral begins with two dots, whatever follows. *)
Lemma numeral_tail : forall w q w1 w2, numeral w q -> w = w1 ++ w2 -> w2 <> [] ->
    (forall r, prefix_of (lit "..") (w2 ++ r) = None) /\
    exists c r, w2 = c :: r /\ is_num c = true.
Proof.
  intros w q w1 w2 H E Hne. pose proof (numeral_num _ _ H) as (HN & _).
  rewrite E, forallb_app in HN. apply andb_true_iff in HN. destruct HN as [_ HN].
  destruct w2 as [|c w2]; [congruence|]. simpl in HN. apply andb_true_iff in HN. destruct HN as [Hc HN].
  split; [|eauto]. intros r. change (lit "..") with [46%N; 46%N]; cbn [app prefix_of]. 
  destruct H as (a & b & Ha & Hb & _ & Hw & _).
  destruct (N.eqb_spec 46 c) as [<-|Hd]; [|reflexivity].
  assert (HB : exists d r', w2 = d :: r' /\ is_digit d = true).
  { destruct Hw as [[-> ->]|[-> Hbn]].
    - subst a. unfold digits in Ha. apply Forall_app in Ha. destruct Ha as [_ Ha]. inversion Ha; discriminate.
    - clear - E Ha Hb Hbn. revert w1 E. induction a as [|x a IH]; intros w1 E.
      + destruct w1 as [|y w1]; simpl in E; inversion E; subst.
        * destruct w2 as [|d r']; [congruence|]. inversion Hb; eauto.
        * exfalso. unfold digits in Hb. apply Forall_app in Hb. destruct Hb as [_ Hb]. inversion Hb; discriminate.
      + inversion Ha; subst. destruct w1 as [|y w1]; simpl in E; inversion E; subst; [discriminate|].
        eapply IH; eauto. }
  destruct HB as (d & r' & -> & Hdd). cbn [app].
  destruct (N.eqb_spec 46 d) as [<-|]; [discriminate|reflexivity].
Qed.

Lemma num_not_space : forall c, is_num c = true -> c <> 32%N /\ c <> 41%N.
Proof. intros c H. split; intros ->; discriminate. Qed.

Lemma count_digits : forall w z, count w z -> forallb is_digit w = true /\ w <> [].
Proof. intros w z (H1 & H2 & _). split; auto. now apply digits_forallb. Qed.

Lemma prefix_of_head : forall p x y s, x <> y -> prefix_of (x :: p) (y :: s) = None.
Proof. intros. simpl. destruct (N.eqb_spec x y); [congruence|reflexivity]. Qed.

Lemma rows_fails : forall c r s, is_num c = true -> prefix_of (lit " rows=") ((c :: r) ++ s) = None.
Proof.
  intros c r s H. apply num_not_space in H. destruct H as [H _].
  change (lit " rows=") with (32%N :: lit "rows="). cbn [app]. apply prefix_of_head. congruence.
Qed.
Lemma actual_match : forall a first avg rows loops i rest, actual_means a first avg rows loops ->
    exists m, match_at MysqlExplain.actual_reg i (actual_text a ++ rest) = Some m /\
      m_caps m = [(4, a_loops a); (3, a_rows a); (2, a_avg a); (1, a_first a)].
Proof.
  intros a first avg rows loops i rest (N1 & _ & N2 & _ & C1 & C2).
  eexists. unfold match_at, MysqlExplain.actual_reg, actual_text. cbn [cats].
  rewrite <- !app_assoc. rewrite mt_cat, mt_str_app, mt_cat. split.
  - apply mt_grp_lazy; [apply (numeral_num _ _ N1)|apply (numeral_num _ _ N1)| |].
    + intros w1 w2 E _ Hne. rewrite mt_cat, mt_str.
      destruct (numeral_tail _ _ _ _ N1 E Hne) as [HT _]. now rewrite HT.
    + rewrite mt_cat, mt_str_app, mt_cat.
      apply mt_grp_lazy; [apply (numeral_num _ _ N2)|apply (numeral_num _ _ N2)| |].
      * intros w1 w2 E _ Hne. rewrite mt_cat, mt_str.
        destruct (numeral_tail _ _ _ _ N2 E Hne) as [_ (c & r & -> & Hc)].
        now rewrite rows_fails.
      * rewrite mt_cat, mt_str_app, mt_cat.
        apply mt_grp_greedy; [apply (count_digits _ _ C1)|apply (count_digits _ _ C1)|reflexivity|].
        rewrite mt_cat, mt_str_app, mt_cat.
        apply mt_grp_greedy; [apply (count_digits _ _ C2)|apply (count_digits _ _ C2)|reflexivity|].
        simpl. reflexivity.
  - reflexivity.
Qed.

Lemma firstn_len : forall (w r : gostring) n, n = length w -> firstn n (w ++ r) = w.
Proof.
  intros w r n ->. rewrite firstn_app, Nat.sub_diag, firstn_all. simpl. apply app_nil_r.
Qed.
Lemma mysql_estimate_match : forall e init cost rows i rest, mysql_estimate_means e init cost rows ->
    exists m, match_at MysqlExplain.estimation_reg i (mysql_estimate_text e ++ rest) = Some m /\
      capd (m_caps m) 1 = match e_init e with Some w => w | None => e_cost e end /\
      capd (m_caps m) 2 = match e_init e with Some _ => lit ".." ++ e_cost e | None => [] end /\
      capd (m_caps m) 3 = match e_init e with Some _ => e_cost e | None => [] end /\
      capd (m_caps m) 4 = match e_rows e with Some w => lit " rows=" ++ w | None => [] end /\
      capd (m_caps m) 5 = match e_rows e with Some w => w | None => [] end.
Proof.
  intros e init cost rows i rest (HI & N2 & _ & HR).
  unfold match_at, MysqlExplain.estimation_reg, mysql_estimate_text. cbn [cats].
  set (tail := match e_rows e with Some n => lit " rows=" ++ n | None => [] end ++ lit ")" ++ rest).
  set (fin := fun (i' : nat) (s' : gostring) (c : caps) => Some {| m_start := i;
                m_text := firstn (i' - i) ((lit "(cost=" ++ match e_init e with Some i => i ++ lit ".." | None => [] end ++ e_cost e ++
                   match e_rows e with Some n => lit " rows=" ++ n | None => [] end ++ lit ")") ++ rest);
                m_caps := c; m_rest := s' |}).
  (* the part after the costs *)
  assert (HT : forall j c, exists x, 
     mt (Cat (opt (Grp 4 (Cat (str (lit " rows=")) (Grp 5 (plus true digit))))) (ch 41)) j tail c fin = Some x /\
     m_caps x = match e_rows e with
                | Some w => (4, lit " rows=" ++ w) :: (5, w) :: c
                | None => c
                end).
  { intros j c. unfold tail, opt. rewrite mt_cat, mt_alt. destruct (e_rows e) as [w|] eqn:ER.
    - destruct rows as [z|]; [|tauto]. destruct (count_digits _ _ HR) as [HD HN].
      eexists. split.
      + rewrite mt_grp, mt_cat. rewrite <- app_assoc, mt_str_app.
        unfold orelse, digit. erewrite mt_grp_greedy; [reflexivity|exact HD|exact HN|reflexivity|].
        simpl mt. cbv beta. reflexivity.
      + unfold fin. cbn [m_caps]. f_equal. f_equal.
        apply (firstn_len (lit " rows=" ++ w) (41%N :: rest)).
        rewrite app_length. change (length (lit " rows=")) with 6. lia.
    - eexists. split; [|].
      + rewrite mt_grp, mt_cat, mt_str. change (prefix_of (lit " rows=") ([] ++ lit ")" ++ rest)) with (@None gostring).
        simpl orelse. reflexivity.
      + reflexivity. }
  (* nothing after the costs begins with a number character *)
  assert (HF : forall d r s j c, is_num d = true ->
     mt (Cat (opt (Grp 4 (Cat (str (lit " rows=")) (Grp 5 (plus true digit))))) (ch 41)) j ((d :: r) ++ s) c fin = None).
  { intros d r s j c Hd. unfold opt. rewrite mt_cat, mt_alt, mt_grp, mt_cat, mt_str, rows_fails by auto.
    apply num_not_space in Hd. cbn [app]. simpl.
    destruct d as [|d]; auto. repeat (destruct d as [d|d|]; auto). exfalso. tauto. }
  rewrite <- !app_assoc. fold tail. rewrite mt_cat, mt_str_app, mt_cat.
  destruct (e_init e) as [w|] eqn:EI.
  - destruct init as [qi|]; [|tauto]. destruct HI as [N1 _].
    destruct (HT (i + length (lit "(cost=") + length w + length (lit "..") + length (e_cost e))
                ((2, lit ".." ++ e_cost e) :: (3, e_cost e) :: [(1, w)])) as (x & Hx1 & Hx2).
    exists x. split.
    + rewrite <- app_assoc. apply mt_grp_lazy; [apply (numeral_num _ _ N1)|apply (numeral_num _ _ N1)| |].
      * intros w1 w2 E _ Hne. destruct (numeral_tail _ _ _ _ N1 E Hne) as [HP (d & r & -> & Hd)].
        rewrite mt_cat. unfold opt at 1. rewrite mt_alt, mt_grp, mt_cat, mt_str, HP. simpl orelse.
        apply HF. exact Hd.
      * rewrite mt_cat. unfold opt at 1. rewrite mt_alt, mt_grp, mt_cat, mt_str_app.
        unfold orelse, num. erewrite mt_grp_lazy; [reflexivity|apply (numeral_num _ _ N2)|apply (numeral_num _ _ N2)| |].
        -- intros w1 w2 E _ Hne. destruct (numeral_tail _ _ _ _ N2 E Hne) as [_ (d & r & -> & Hd)].
           apply HF. exact Hd.
        -- rewrite <- Hx1. f_equal. f_equal. f_equal.
           apply (firstn_len (lit ".." ++ e_cost e) tail). rewrite app_length. lia.
    + rewrite Hx2. destruct (e_rows e); unfold capd; simpl; auto.
  - destruct (HT (i + length (lit "(cost=") + length (e_cost e)) [(1, e_cost e)]) as (x & Hx1 & Hx2).
    exists x. split.
    + cbn [app]. apply mt_grp_lazy; [apply (numeral_num _ _ N2)|apply (numeral_num _ _ N2)| |].
      * intros w1 w2 E _ Hne. destruct (numeral_tail _ _ _ _ N2 E Hne) as [HP (d & r & -> & Hd)].
        rewrite mt_cat. unfold opt at 1. rewrite mt_alt, mt_grp, mt_cat, mt_str, HP. simpl orelse.
        apply HF. exact Hd.
      * rewrite mt_cat. unfold opt at 1. rewrite mt_alt, mt_grp, mt_cat, mt_str.
        assert (HP : prefix_of (lit "..") tail = None).
        { unfold tail. destruct (e_rows e); reflexivity. }
        rewrite HP. simpl orelse. exact Hx1.
    + rewrite Hx2. destruct (e_rows e); unfold capd; simpl; auto.
Qed.

Lemma pg_estimate_match : forall e init cost rows width i rest, pg_estimate_means e init cost rows width ->
    exists m, match_at PgExplain.estimation_reg i (pg_estimate_text e ++ rest) = Some m /\
      m_caps m = [(4, g_width e); (3, g_rows e); (2, g_cost e); (1, g_init e)].
Proof.
  intros e init cost rows width i rest (N1 & _ & N2 & _ & C1 & C2).
  eexists. unfold match_at, PgExplain.estimation_reg, pg_estimate_text. cbn [cats].
  rewrite <- !app_assoc. rewrite mt_cat, mt_str_app, mt_cat. split.
  - apply mt_grp_lazy; [apply (numeral_num _ _ N1)|apply (numeral_num _ _ N1)| |].
    + intros w1 w2 E _ Hne. rewrite mt_cat, mt_str.
      destruct (numeral_tail _ _ _ _ N1 E Hne) as [HT _]. now rewrite HT.
    + rewrite mt_cat, mt_str_app, mt_cat.
      apply mt_grp_lazy; [apply (numeral_num _ _ N2)|apply (numeral_num _ _ N2)| |].
      * intros w1 w2 E _ Hne. rewrite mt_cat, mt_str.
        destruct (numeral_tail _ _ _ _ N2 E Hne) as [_ (c & r & -> & Hc)].
        now rewrite rows_fails.
      * rewrite mt_cat, mt_str_app, mt_cat.
        apply mt_grp_greedy; [apply (count_digits _ _ C1)|apply (count_digits _ _ C1)|reflexivity|].
        rewrite mt_cat, mt_str_app, mt_cat.
        apply mt_grp_greedy; [apply (count_digits _ _ C2)|apply (count_digits _ _ C2)|reflexivity|].
        simpl. reflexivity.
  - reflexivity.
Qed.

(** ** Prefixes *)
Lemma match_prefix : forall p r i s x, match_at (Cat (str p) r) i s = Some x -> exists u, s = p ++ u.
Proof.
  intros p r i s x H. unfold match_at in H. rewrite mt_cat, mt_str in H.
  destruct (prefix_of p s) as [u|] eqn:E; [|discriminate]. apply prefix_of_some in E. eauto.
Qed.
Lemma mysql_est_prefix : forall i s x, match_at MysqlExplain.estimation_reg i s = Some x -> exists u, s = lit "(cost=" ++ u.
Proof. intros i s x H. eapply match_prefix; exact H. Qed.
Lemma pg_est_prefix : forall i s x, match_at PgExplain.estimation_reg i s = Some x -> exists u, s = lit "(cost=" ++ u.
Proof. intros i s x H. eapply match_prefix; exact H. Qed.
Lemma actual_prefix : forall i s x, match_at MysqlExplain.actual_reg i s = Some x -> exists u, s = lit "(actual time=" ++ u.
Proof. intros i s x H. eapply match_prefix; exact H. Qed.

Lemma not_in_lit : forall p, forallb (fun c => negb (N.eqb c 40)) p = true -> ~ In 40%N p.
Proof.
  intros p H Hi. rewrite forallb_forall in H. apply H in Hi. discriminate.
Qed.

Lemma find_actual : forall pre a first avg rows loops post,
    actual_means a first avg rows loops -> ~ occurs (lit "(actual time=") pre ->
    exists m, find MysqlExplain.actual_reg (pre ++ actual_text a ++ post) = Some m /\
      m_caps m = [(4, a_loops a); (3, a_rows a); (2, a_avg a); (1, a_first a)].
Proof.
  intros pre a first avg rows loops post Ha Hp.
  destruct (actual_match a first avg rows loops (length pre) post Ha) as (m & H1 & H2).
  exists m. split; auto. eapply find_at; [exact actual_prefix| |exact H1].
  eapply occurs_first with (p0 := lit "actual time="); [reflexivity|now apply not_in_lit|exact Hp|].
  unfold actual_text. eexists. rewrite <- app_assoc. reflexivity.
Qed.
Lemma find_mysql_estimate : forall pre e init cost rows post,
    mysql_estimate_means e init cost rows -> ~ occurs (lit "(cost=") pre ->
    exists m, find MysqlExplain.estimation_reg (pre ++ mysql_estimate_text e ++ post) = Some m /\
      capd (m_caps m) 1 = match e_init e with Some w => w | None => e_cost e end /\
      capd (m_caps m) 2 = match e_init e with Some _ => lit ".." ++ e_cost e | None => [] end /\
      capd (m_caps m) 3 = match e_init e with Some _ => e_cost e | None => [] end /\
      capd (m_caps m) 4 = match e_rows e with Some w => lit " rows=" ++ w | None => [] end /\
      capd (m_caps m) 5 = match e_rows e with Some w => w | None => [] end.
Proof.
  intros pre e init cost rows post He Hp.
  destruct (mysql_estimate_match e init cost rows (length pre) post He) as (m & H1 & H2).
  exists m. split; auto. eapply find_at; [exact mysql_est_prefix| |exact H1].
  eapply occurs_first with (p0 := lit "cost="); [reflexivity|now apply not_in_lit|exact Hp|].
  unfold mysql_estimate_text. eexists. rewrite <- app_assoc. reflexivity.
Qed.
Lemma find_pg_estimate : forall pre e init cost rows width post,
    pg_estimate_means e init cost rows width -> ~ occurs (lit "(cost=") pre ->
    exists m, find PgExplain.estimation_reg (pre ++ pg_estimate_text e ++ post) = Some m /\
      m_caps m = [(4, g_width e); (3, g_rows e); (2, g_cost e); (1, g_init e)].
Proof.
  intros pre e init cost rows width post He Hp.
  destruct (pg_estimate_match e init cost rows width (length pre) post He) as (m & H1 & H2).
  exists m. split; auto. eapply find_at; [exact pg_est_prefix| |exact H1].
  eapply occurs_first with (p0 := lit "cost="); [reflexivity|now apply not_in_lit|exact Hp|].
  unfold pg_estimate_text. eexists. rewrite <- app_assoc. reflexivity.
Qed.

Lemma float_of_numeral : forall w q line, numeral w q -> fits q ->
    exists q', float_of w line = Ok q' /\ (q' == q)%Q.
Proof.
  intros w q line H HF. destruct (proj2 (parse_float_iff w q)) as (q' & H1 & H2).
  { split; auto using numeral_decimal. }
  exists q'. unfold float_of. rewrite H1. auto.
Qed.
Lemma int_of_count : forall w z shown line, count w z -> int_of w shown line = Ok z.
Proof. intros w z shown line H. apply parse_count in H. unfold int_of. now rewrite H. Qed.

Lemma parse_actual_printed : forall pre a first avg rows loops post,
    actual_means a first avg rows loops -> ~ occurs (lit "(actual time=") pre ->
    exists f v, MysqlExplain.parse_actual (pre ++ actual_text a ++ post) =
                Ok (Some f, Some v, Some rows, Some loops) /\ (f == first)%Q /\ (v == avg)%Q.
Proof.
  intros pre a first avg rows loops post Ha Hp.
  destruct (find_actual pre a first avg rows loops post Ha Hp) as (m & Hf & Hc).
  destruct Ha as (N1 & F1 & N2 & F2 & C1 & C2).
  set (line := pre ++ actual_text a ++ post) in *.
  destruct (float_of_numeral _ _ line N1 F1) as (f & E1 & Q1).
  destruct (float_of_numeral _ _ line N2 F2) as (v & E2 & Q2).
  exists f, v. split; auto. unfold MysqlExplain.parse_actual. rewrite Hf, Hc. unfold capd. simpl.
  rewrite E1. cbn [obind]. rewrite E2. cbn [obind].
  rewrite (int_of_count _ _ _ _ C1). cbn [obind]. rewrite (int_of_count _ _ _ _ C2). reflexivity.
Qed.
Lemma parse_actual_absent : forall line, ~ occurs (lit "(actual time=") line ->
    MysqlExplain.parse_actual line = Ok (None, None, None, None).
Proof.
  intros line H. unfold MysqlExplain.parse_actual.
  now rewrite (find_absent _ _ _ actual_prefix H).
Qed.
Lemma parse_mysql_estimation_printed : forall pre e init cost rows post,
    mysql_estimate_means e init cost rows -> ~ occurs (lit "(cost=") pre ->
    exists oi c, MysqlExplain.parse_estimation (pre ++ mysql_estimate_text e ++ post) =
                Ok (oi, Some c, rows) /\ same_number oi init /\ (c == cost)%Q.
Proof.
  intros pre e init cost rows post He Hp.
  destruct (find_mysql_estimate pre e init cost rows post He Hp) as (m & Hf & H1 & H2 & H3 & H4 & H5).
  destruct He as (HI & N2 & F2 & HR).
  set (line := pre ++ mysql_estimate_text e ++ post) in *.
  destruct (float_of_numeral _ _ line N2 F2) as (c & E2 & Q2).
  assert (HRR : match capd (m_caps m) 4 with
                 | [] => Ok None
                 | _ => do n <- int_of (capd (m_caps m) 5) (capd (m_caps m) 4) line; Ok (Some n)
                 end = Ok rows).
  { rewrite H4, H5. destruct (e_rows e) as [w|], rows as [z|]; try tauto.
    rewrite (int_of_count _ _ _ _ HR). reflexivity. }
  unfold MysqlExplain.parse_estimation. rewrite Hf. cbv zeta. rewrite HRR, H2.
  destruct (e_init e) as [w|], init as [qi|]; try tauto.
  - destruct HI as [N1 F1]. destruct (float_of_numeral _ _ line N1 F1) as (f & E1 & Q1).
    exists (Some f), c. split; [|simpl; auto].
    rewrite H1, H3, E1. simpl. rewrite E2. reflexivity.
  - exists None, c. split; [|simpl; auto]. rewrite H1, E2. reflexivity.
Qed.
Lemma parse_mysql_estimation_absent : forall line, ~ occurs (lit "(cost=") line ->
    MysqlExplain.parse_estimation line = Ok (None, None, None).
Proof.
  intros line H. unfold MysqlExplain.parse_estimation.
  now rewrite (find_absent _ _ _ mysql_est_prefix H).
Qed.
Lemma parse_pg_estimation_printed : forall pre e init cost rows width post,
    pg_estimate_means e init cost rows width -> ~ occurs (lit "(cost=") pre ->
    exists f c, PgExplain.parse_estimation (pre ++ pg_estimate_text e ++ post) =
                Ok (Some f, Some c, Some rows, Some width) /\ (f == init)%Q /\ (c == cost)%Q.
Proof.
  intros pre e init cost rows width post He Hp.
  destruct (find_pg_estimate pre e init cost rows width post He Hp) as (m & Hf & Hc).
  destruct He as (N1 & F1 & N2 & F2 & C1 & C2).
  set (line := pre ++ pg_estimate_text e ++ post) in *.
  destruct (float_of_numeral _ _ line N1 F1) as (f & E1 & Q1).
  destruct (float_of_numeral _ _ line N2 F2) as (v & E2 & Q2).
  exists f, v. split; auto. unfold PgExplain.parse_estimation. rewrite Hf, Hc. unfold capd. simpl.
  rewrite E1. cbn [obind]. rewrite E2. cbn [obind].
  rewrite (int_of_count _ _ _ _ C1). cbn [obind]. rewrite (int_of_count _ _ _ _ C2). reflexivity.
Qed.
Lemma parse_pg_estimation_absent : forall line, ~ occurs (lit "(cost=") line ->
    PgExplain.parse_estimation line = Ok (None, None, None, None).
Proof.
  intros line H. unfold PgExplain.parse_estimation.
  now rewrite (find_absent _ _ _ pg_est_prefix H).
Qed.
