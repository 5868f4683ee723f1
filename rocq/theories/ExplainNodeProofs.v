(** What the two explain parsers say about arbitrary lines and nodes. *)
From Coq Require Import String List NArith ZArith QArith Bool Lia Arith.
From Verif Require Import Base Dec Regex RegexInv ExplainTree ExplainSpec ExplainLineSpec ExplainTreeProofs ExplainLevelProofs
  ExplainLineProofs ExplainMatchProofs ExplainTableProofs ExplainSoundProofs PgExplainSpec PgExplainProofs PgPrintSpec.
From Verif Require MysqlExplain MysqlExplainProofs MysqlExplainRoundtrip PgExplain PgExplainTreeProofs PgExplainRoundtrip.
Import ListNotations.
Local Open Scope nat_scope.

Lemma mysql_line_reads_lemma : forall line,
    match MysqlExplain.parse_line line with
    | Ok (d, l) => d = MysqlExplain.nest_of line /\
        MysqlExplain.rl_text l = line /\ mysql_table line (MysqlExplain.rl_table l) /\
        mysql_estimate_stands line (MysqlExplain.rl_init_cost l) (MysqlExplain.rl_cost l) (MysqlExplain.rl_rows l) /\
        actual_stands line (MysqlExplain.rl_time_first l) (MysqlExplain.rl_time_avg l)
          (MysqlExplain.rl_returned l) (MysqlExplain.rl_loops l)
    | Err _ => mysql_estimate_unreadable line \/ actual_unreadable line
    | Panic => False
    end.
Proof.
  intros line. unfold MysqlExplain.parse_line.
  pose proof (mysql_estimate_reads line) as H1.
  destruct (MysqlExplain.parse_estimation line) as [[[i c] r]|m|]; cbn [obind]; [|left; exact H1|exact H1].
  pose proof (actual_reads line) as H2.
  destruct (MysqlExplain.parse_actual line) as [[[[f v] n] l]|m|]; cbn [obind]; [|right; exact H2|exact H2].
  cbn [MysqlExplain.rl_text MysqlExplain.rl_table MysqlExplain.rl_init_cost MysqlExplain.rl_cost MysqlExplain.rl_rows
       MysqlExplain.rl_time_first MysqlExplain.rl_time_avg MysqlExplain.rl_returned MysqlExplain.rl_loops].
  split; auto. split; auto. split; [apply mysql_table_exact|]. split; [|exact H2].
  unfold mysql_estimate_stands. destruct i, c, r; exact H1.
Qed.

Lemma mysql_build_error : forall text m, MysqlExplain.build_explain text = Err m ->
    m = lit "invalid result from EXPLAIN ANALYZE" \/
    exists line, In line (split nl text) /\ line <> [] /\ MysqlExplain.parse_line line = Err m.
Proof.
  intros text m H. unfold MysqlExplain.build_explain in H. cbn [alloc] in H.
  assert (HL : forall lines h st m, MysqlExplain.build_loop lines h st = Err m ->
     m = lit "invalid result from EXPLAIN ANALYZE" \/
     exists line, In line lines /\ line <> [] /\ MysqlExplain.parse_line line = Err m).
  { clear. induction lines as [|line lines IH]; intros h st m H; [discriminate|].
    assert (HI : forall h st, MysqlExplain.build_loop lines h st = Err m ->
      m = lit "invalid result from EXPLAIN ANALYZE" \/
      exists l, In l (line :: lines) /\ l <> [] /\ MysqlExplain.parse_line l = Err m).
    { intros h' st' E. destruct (IH _ _ _ E) as [K|(l & K1 & K2)]; auto. right. exists l. split; [now right|auto]. }
    destruct line as [|c line]; [eapply HI; exact H|]. cbn [MysqlExplain.build_loop] in H.
    destruct (MysqlExplain.parse_line (c :: line)) as [[nest l]|e|] eqn:E; cbn [obind] in H; [| |discriminate].
    - destruct (alloc h l) as [h1 n]. destruct (Nat.eqb (length st - 1) nest).
      + destruct st; [discriminate|eauto].
      + destruct (Nat.ltb nest (length st - 1)).
        * destruct (MysqlExplain.pop_deeper nest (tl st)); [discriminate|eauto].
        * left. congruence.
    - right. exists (c :: line). split; [now left|]. split; congruence. }
  destruct (MysqlExplain.build_loop _ _ _) as [h|e|] eqn:E; cbn [obind] in H; [|inversion H; subst; eauto|discriminate].
  exfalso. unfold tree_at in H. destruct (read _ h _); discriminate.
Qed.

(** ** PostgreSQL *)
Lemma metric_iff : forall l, match_string PgExplain.metric_reg l = true <-> has_cost l.
Proof.
  intros l. rewrite match_string_iff. unfold matches_somewhere, PgExplain.metric_reg. cbn [cats]. split.
  - intros (w & s1 & i' & s' & c' & -> & H).
    apply M_cat_inv in H. destruct H as (i1 & s2 & c1 & H1 & H). apply M_str_inv in H1. destruct H1 as (-> & _ & _).
    apply M_cat_inv in H. destruct H as (i2 & s3 & c2 & H1 & H). apply M_plus_inv in H1.
    destruct H1 as (v & -> & _ & _ & Hv & Hne).
    apply M_cat_inv in H. destruct H as (i3 & s4 & c3 & H1 & _). apply M_ch_inv in H1. destruct H1 as (-> & _ & _).
    exists w, v, s4. split; auto. split; auto. intros Hi. rewrite forallb_forall in Hv. apply Hv in Hi. discriminate.
  - intros (a & w & b & -> & Hne & Hnl).
    exists a, (lit "(cost=" ++ w ++ lit ")" ++ b), (length a + 6 + length w + 1), b, []. split; auto.
    eapply M_Cat; [apply M_str_intro|]. eapply M_Cat.
    { apply M_plus_intro; auto. apply forallb_forall. intros x Hx. apply negb_true_iff. apply N.eqb_neq.
      intros ->. auto. }
    eapply M_Cat; [apply M_ch_intro|].
    replace (length a + 6 + length w + 1) with (S (length a + length (lit "(cost=") + length w)) by (simpl; lia).
    apply M_AltR. constructor.
Qed.
Lemma metric_line_spec : forall lines, numbers_line lines (PgExplain.metric_line lines).
Proof.
  induction lines as [|l lines IH]; [right; auto|]. cbn [PgExplain.metric_line].
  destruct (match_string PgExplain.metric_reg l) eqn:E.
  - left. exists [], lines. split; auto. split; auto. now apply metric_iff.
  - assert (HN : ~ has_cost l) by (intros K; apply metric_iff in K; congruence).
    destruct IH as [(b & a & E2 & H1 & H2)|[H ->]].
    + left. exists (l :: b), a. split; [cbn [app]; now rewrite <- E2|]. split; auto.
    + right. split; auto.
Qed.
Lemma numbers_line_fun : forall lines a b, numbers_line lines a -> numbers_line lines b -> a = b.
Proof.
  induction lines as [|l lines IH]; intros a b Ha Hb.
  - destruct Ha as [([|x before] & after & E & _)|[_ ->]]; try discriminate.
    destruct Hb as [([|x before] & after & E & _)|[_ ->]]; try discriminate. reflexivity.
  - assert (HX : forall a, numbers_line (l :: lines) a -> (has_cost l /\ a = l) \/ (~ has_cost l /\ numbers_line lines a)).
    { clear. intros a [([|x before] & after & E & H1 & H2)|[H ->]].
      - inversion E; subst. left. auto.
      - inversion E; subst. inversion H2; subst. right. split; auto. left. exists before, after. auto.
      - inversion H; subst. right. split; auto. right. auto. }
    apply HX in Ha, Hb. destruct Ha as [[? ->]|[? Ha]], Hb as [[? ->]|[? Hb]]; try tauto. eauto.
Qed.

Lemma pg_node_reads_lemma : forall lines, lines <> [] ->
    match PgExplain.parse_node lines with
    | Ok (sp, n) => PgExplain.rn_lines n = lines /\ pg_table lines (PgExplain.rn_table n) /\
        exists line, numbers_line lines line /\
          pg_estimate_stands line (PgExplain.rn_init_cost n) (PgExplain.rn_cost n) (PgExplain.rn_rows n) (PgExplain.rn_width n) /\
          actual_stands line (PgExplain.rn_time_first n) (PgExplain.rn_time_avg n) (PgExplain.rn_returned n) (PgExplain.rn_loops n)
    | Err _ => exists line, numbers_line lines line /\ (pg_estimate_unreadable line \/ actual_unreadable line)
    | Panic => False
    end.
Proof.
  intros lines Hne. unfold PgExplain.parse_node. cbv zeta.
  pose proof (metric_line_spec lines) as HM. set (line := PgExplain.metric_line lines) in *.
  pose proof (pg_estimate_reads line) as H1.
  destruct (PgExplain.parse_estimation line) as [[[[i c] r] w]|m|]; cbn [obind]; [|eauto|exact H1].
  pose proof (actual_reads line) as H2.
  change (PgExplain.parse_actual line) with (MysqlExplain.parse_actual line).
  destruct (MysqlExplain.parse_actual line) as [[[[f v] n] l]|m|]; cbn [obind]; [|eauto|exact H2].
  destruct lines as [|l0 lines]; [congruence|]. cbv beta iota.
  cbn [PgExplain.rn_lines PgExplain.rn_table PgExplain.rn_init_cost PgExplain.rn_cost PgExplain.rn_rows PgExplain.rn_width
       PgExplain.rn_time_first PgExplain.rn_time_avg PgExplain.rn_returned PgExplain.rn_loops].
  split; auto. split; [apply pg_table_exact|]. exists line. split; auto.
Qed.
Lemma pg_node_space : forall ws rest lines sp n, Forall (fun c => is_space c = true) ws ->
    match rest with [] => True | c :: _ => is_space c = false end ->
    PgExplain.parse_node ((ws ++ rest) :: lines) = Ok (sp, n) -> sp = length ws.
Proof.
  intros ws rest lines sp n Hw Hr H. unfold PgExplain.parse_node in H. cbv zeta in H.
  destruct (PgExplain.parse_estimation _) as [[[[i c] r] w]|m|]; cbn [obind] in H; try discriminate.
  destruct (PgExplain.parse_actual _) as [[[[f v] r'] l]|m|]; cbn [obind] in H; try discriminate.
  apply forall_forallb in Hw.
  destruct (MysqlExplainRoundtrip.find_bot_spaces ws rest Hw Hr) as (m & Hm & Ht).
  unfold PgExplain.space_reg in H. rewrite Hm, Ht, MysqlExplainRoundtrip.byte_len_spaces in H by auto. congruence.
Qed.

(** ** Parents *)
Lemma nearest_less_fun : forall levels i p q, nearest_less levels i p -> nearest_less levels i q -> p = q.
Proof.
  intros levels i [j|] [k|] H1 H2; simpl in *; auto.
  - destruct H1 as (A1 & A2 & A3), H2 as (B1 & B2 & B3). f_equal.
    destruct (Nat.lt_trichotomy j k) as [H|[H|H]]; auto.
    + specialize (A3 k H B1). lia.
    + specialize (B3 j H A1). lia.
  - destruct H1 as (A1 & A2 & _). specialize (H2 j A1). lia.
  - destruct H2 as (A1 & A2 & _). specialize (H1 k A1). lia.
Qed.
Lemma parents_nearest_fun : forall levels p q, parents_nearest levels p -> parents_nearest levels q -> p = q.
Proof.
  intros levels p q [L1 H1] [L2 H2]. apply nth_ext with (d := None) (d' := None); [congruence|].
  intros i Hi. eapply nearest_less_fun; [apply H1|apply H2]; apply nth_error_nth'; congruence.
Qed.

Section Zvals.
  Context {A : Type} (lev : A -> Z).
  Definition root_val (F : @frames A) : option A := option_map fst (List.last (map Some F) None).
  Lemma zclose_root : forall (F : @frames A) b, option_map t_val (zclose F b) = root_val F.
  Proof.
    induction F as [|[v ts] F IH]; intros b; auto. destruct F as [|f F]; [reflexivity|].
    change (zclose ((v, ts) :: f :: F) b) with (zclose (f :: F) [Node v (ts ++ b)]). rewrite IH. reflexivity.
  Qed.
  Lemma root_val_cons : forall x (F : @frames A), F <> [] -> root_val (x :: F) = root_val F.
  Proof. intros x [|f F] H; [congruence|reflexivity]. Qed.
  Lemma zpop_root : forall (F : @frames A) l b, root_val (zpop lev l b F) = root_val F.
  Proof.
    induction F as [|[v ts] F IH]; intros l b; auto. destruct F as [|f F]; [reflexivity|].
    change (zpop lev l b ((v, ts) :: f :: F)) with
      (if Z.leb l (lev v) then zpop lev l [Node v (ts ++ b)] (f :: F) else (v, ts ++ b) :: f :: F).
    destruct (Z.leb l (lev v)); [|reflexivity].
    change (root_val ((v, ts) :: f :: F)) with (root_val (f :: F)). rewrite <- (IH l [Node v (ts ++ b)]).
    reflexivity.
  Qed.
  Lemma zrun_root : forall xs (F : @frames A), F <> [] -> root_val (zrun lev F xs) = root_val F.
  Proof.
    induction xs as [|x xs IH]; intros F HF; auto. change (zrun lev F (x :: xs)) with (zrun lev (zstep lev F x) xs).
    rewrite IH by apply zstep_nonempty. unfold zstep. rewrite root_val_cons by (now apply zpop_nonempty).
    apply zpop_root.
  Qed.
  Lemma zrun_nearest : forall root xs t, Forall (fun x => (0 <= lev x)%Z) xs ->
      zclose (zrun lev [(root, [])] xs) [] = Some t ->
      t_val t = root /\ flat_map preorder (t_children t) = xs /\
      parents_nearest (map (fun x => Z.to_nat (lev x)) xs) (forest_parents None 0 (t_children t)).
  Proof.
    intros root xs t Hpos H.
    pose proof (zclose_root (zrun lev [(root, [])] xs) []) as HV. rewrite H in HV.
    rewrite zrun_root in HV by congruence. assert (HV2 : t_val t = root) by (injection HV; auto).
    destruct (zlists_close _ _ _ eq_refl H) as [H1 H2].
    destruct (zrun_init lev root xs) as [HP HZ]. rewrite HZ in H2.
    split; auto. split; auto. unfold parents_right in HP. rewrite HZ in HP. rewrite <- H1, HP.
    split; [rewrite !map_length, seq_length; reflexivity|].
    intros i p Hp. rewrite nth_error_map in Hp.
    destruct (nth_error (seq 0 (length xs)) i) as [j|] eqn:EJ; [|discriminate].
    assert (Hi : i < length xs) by (apply nth_error_Some_lt in EJ || (rewrite <- (seq_length (length xs) 0); apply nth_error_Some; congruence)).
    assert (j = i).
    { pose proof (nth_error_nth _ _ 0 EJ) as E. rewrite seq_nth in E; auto. } subst j.
    destruct (nth_error xs i) as [x|] eqn:EX; [|apply nth_error_None in EX; lia].
    simpl in Hp. rewrite EX in Hp. inversion Hp as [Hq]. clear Hp.
    pose proof (last_less_spec lev x (firstn i xs) (lev x) _ Hq) as HS.
    assert (HL : length (firstn i xs) = i) by (rewrite firstn_length; lia).
    assert (HN : forall k, k < i -> nth k (map (fun x => Z.to_nat (lev x)) xs) 0 = Z.to_nat (lev (nth k (firstn i xs) x))).
    { intros k Hk. rewrite nth_indep with (d' := Z.to_nat (lev x)) by (rewrite map_length; lia).
      rewrite (map_nth (fun x => Z.to_nat (lev x))). do 2 f_equal.
      rewrite <- (firstn_skipn i xs) at 1. rewrite app_nth1 by lia. reflexivity. }
    assert (HX : nth i (map (fun x => Z.to_nat (lev x)) xs) 0 = Z.to_nat (lev x)).
    { rewrite nth_indep with (d' := Z.to_nat (lev x)) by (rewrite map_length; lia).
      rewrite (map_nth (fun x => Z.to_nat (lev x))). do 2 f_equal. now apply nth_error_nth. }
    assert (HP' : forall k, k < i -> (0 <= lev (nth k (firstn i xs) x))%Z).
    { intros k Hk. rewrite Forall_forall in Hpos. apply Hpos.
      rewrite <- (firstn_skipn i xs) at 2. apply in_app_iff. left. apply nth_In. lia. }
    assert (Hx0 : (0 <= lev x)%Z). { rewrite Forall_forall in Hpos. apply Hpos. eapply nth_error_In; eauto. }
    rewrite Hq. rewrite HL in HS. unfold nearest_less. destruct p as [j|].
    - destruct HS as (S1 & S2 & S3). split; auto. rewrite HX, HN by auto. specialize (HP' j S1). split; [lia|].
      intros k K1 K2. rewrite HN by auto. specialize (S3 k K1 K2). lia.
    - intros k Hk. rewrite HX, HN by auto. specialize (HS k Hk). lia.
  Qed.
End Zvals.

Lemma becomes_shows : forall g v, PgExplainTreeProofs.shows g v <-> becomes g v.
Proof.
  intros g [n s]. unfold becomes. simpl. split.
  - intros (sp & r & E & H). inversion H; subst. exists sp. auto.
  - intros (sp & E & ->). exists sp, n. auto.
Qed.
Lemma becomes_fun : forall gs a b, Forall2 becomes gs a -> Forall2 becomes gs b -> a = b.
Proof.
  intros gs a b Ha. revert b. induction Ha as [|g v gs vs (sp & E & Hs) Ha IH]; intros b Hb; inversion Hb as [|? w ? ws (sp' & E' & Hs') Hb']; subst; auto.
  f_equal; auto. rewrite E in E'. inversion E'. destruct v, w; simpl in *. congruence.
Qed.
Lemma pg_build_iff : forall lines t summary, PgExplain.build_explain lines = Ok (t, summary) <->
    t_val t = PgExplain.root_node /\ summary = snd (PgExplain.group_lines lines) /\
    let nodes := flat_map preorder (t_children t) in
    Forall2 becomes (fst (PgExplain.group_lines lines)) nodes /\
    parents_nearest (map (fun v => Z.to_nat (PgExplain.tn_space v)) nodes) (forest_parents None 0 (t_children t)).
Proof.
  intros lines t summary. pose proof (PgExplainTreeProofs.build_explain_spec lines) as H.
  assert (HOK : forall t' s', PgExplain.build_explain lines = Ok (t', s') ->
     t_val t' = PgExplain.root_node /\ s' = snd (PgExplain.group_lines lines) /\
     let nodes := flat_map preorder (t_children t') in
     Forall2 becomes (fst (PgExplain.group_lines lines)) nodes /\
     parents_nearest (map (fun v => Z.to_nat (PgExplain.tn_space v)) nodes) (forest_parents None 0 (t_children t'))).
  { intros t' s' E. rewrite E in H. destruct H as (nodes & H1 & H2 & H3).
    assert (HB : Forall2 becomes (fst (PgExplain.group_lines lines)) nodes).
    { clear - H1. induction H1; constructor; auto. now apply becomes_shows. }
    assert (HP : Forall (fun x => (0 <= PgExplain.tn_space x)%Z) nodes).
    { clear - HB. induction HB as [|g v gs vs (sp & _ & E) HB IH]; constructor; auto. lia. }
    destruct (zrun_nearest PgExplain.tn_space _ _ _ HP H2) as (K1 & K2 & K3).
    split; auto. split; auto. cbv zeta. rewrite K2. auto. }
  split; [apply HOK|]. intros (HV & -> & HF & HN). cbv zeta in *.
  destruct (PgExplain.build_explain lines) as [[t' s']|m|]; [| |elim H].
  - destruct (HOK _ _ eq_refl) as (K1 & -> & K2 & K3). f_equal. f_equal.
    pose proof (becomes_fun _ _ _ K2 HF) as EN. rewrite EN in K3.
    pose proof (parents_nearest_fun _ _ _ K3 HN) as EP.
    assert (EC : t_children t' = t_children t) by (apply forest_parents_inj; auto).
    destruct t, t'. simpl in *. congruence.
  - exfalso. destruct H as (g & Hin & Hg). clear - HF Hin Hg.
    induction HF as [|g' v gs vs (sp & E & _) HF IH]; [elim Hin|]. destruct Hin as [->|Hin]; [congruence|auto].
Qed.
