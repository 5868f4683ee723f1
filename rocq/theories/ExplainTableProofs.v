(** Proofs about the table names in explain lines. *)
From Coq Require Import String List NArith ZArith QArith Bool Lia Arith.
From Verif Require Import Base Dec Regex RegexInv ExplainTree ExplainSpec ExplainLineSpec
  ExplainLineProofs ExplainMatchProofs.
From Verif Require MysqlExplain PgExplain.
Import ListNotations.
Local Open Scope nat_scope.

Section Find.
  Context (r : re) (says : gostring -> gostring -> Prop).
  Context (sound : forall i s m, match_at r i s = Some m -> says s (capd (m_caps m) 1)).
  Context (complete : forall i s t, says s t -> match_at r i s <> None).

  Lemma find_says : forall line m, find r line = Some m -> leftmost says line (capd (m_caps m) 1).
  Proof.
    assert (H : forall line i m, find_from r i line = Some m -> leftmost says line (capd (m_caps m) 1)).
    { induction line as [|x line IH]; intros i m H; cbn [find_from] in H.
      - destruct (match_at r i []) as [m'|] eqn:E; [|discriminate]. inversion H; subst.
        exists [], []. split; auto. split; [eauto|].
        intros a1 a2 HE Hne. symmetry in HE. apply app_eq_nil in HE. tauto.
      - destruct (match_at r i (x :: line)) as [m'|] eqn:E.
        + inversion H; subst. exists [], (x :: line). split; auto. split; [eauto|].
          intros a1 a2 HE Hne. symmetry in HE. apply app_eq_nil in HE. tauto.
        + destruct (IH _ _ H) as (a & s & -> & H1 & H2). exists (x :: a), s. split; auto. split; auto.
          intros [|y a1] a2 HE Hne t Ht.
          * simpl in HE. subst a2. apply (complete i) in Ht. simpl in *. congruence.
          * simpl in HE. inversion HE; subst. eapply H2; eauto. }
    intros line m. apply H.
  Qed.
  Lemma find_silent : forall line, find r line = None -> nowhere says line.
  Proof.
    assert (H : forall line i, find_from r i line = None -> nowhere says line).
    { induction line as [|x line IH]; intros i H a s t E Ht; cbn [find_from] in H.
      - symmetry in E. apply app_eq_nil in E. destruct E; subst.
        apply (complete i) in Ht. destruct (match_at r i []); congruence.
      - destruct (match_at r i (x :: line)) eqn:EM; [discriminate|].
        destruct a as [|y a]; simpl in E.
        + subst s. apply (complete i) in Ht. congruence.
        + inversion E; subst. eapply IH; eauto. }
    intros line. apply H.
  Qed.
End Find.

(** [says] determines the name. *)
Definition determined (says : gostring -> gostring -> Prop) : Prop :=
  forall s t t', says s t -> says s t' -> t = t'.
Lemma leftmost_fun : forall says line t t', determined says ->
    leftmost says line t -> leftmost says line t' -> t = t'.
Proof.
  intros says line t t' HD (a & r & E & H1 & H2) (a' & r' & E' & H1' & H2'). subst line.
  assert (HA : a = a' /\ r = r').
  { revert a' E' H2'. induction a as [|x a IH]; intros a' E' H2'.
    - destruct a' as [|y a']; auto. exfalso. simpl in E'. subst r.
      eapply (H2' [] (y :: a')); eauto. congruence.
    - destruct a' as [|y a'].
      + exfalso. simpl in E'. subst r'. eapply (H2 [] (x :: a)); eauto. congruence.
      + simpl in E'. inversion E'; subst. destruct (IH) with (a' := a') as (-> & ->); auto.
        * intros a1 a2 -> Hne. apply (H2 (y :: a1)); auto.
        * intros a1 a2 -> Hne. apply (H2' (y :: a1)); auto. }
  destruct HA; subst. eapply HD; eauto.
Qed.
Lemma leftmost_nowhere : forall says line t, leftmost says line t -> nowhere says line -> False.
Proof. intros says line t (a & r & -> & H & _) HN. eapply HN; eauto. Qed.

(** Runs of characters. *)
Lemma span_run : forall (p : rune -> bool) (s : gostring), exists w rest, s = w ++ rest /\ forallb p w = true /\
    match rest with [] => True | c :: _ => p c = false end.
Proof.
  intros p s. induction s as [|c s (w & rest & -> & Hw & Hr)].
  - exists [], []. auto.
  - destruct (p c) eqn:E.
    + exists (c :: w), rest. simpl. rewrite E, Hw. auto.
    + exists [], (c :: w ++ rest). auto.
Qed.
Lemma run_unique : forall (p : rune -> bool) (w w' b b' : gostring),
    forallb p w = true -> forallb p w' = true ->
    match b with [] => True | c :: _ => p c = false end ->
    match b' with [] => True | c :: _ => p c = false end ->
    w ++ b = w' ++ b' -> w = w' /\ b = b'.
Proof.
  intros p. induction w as [|x w IH]; intros w' b b' Hw Hw' Hb Hb' E.
  - destruct w' as [|y w']; auto. simpl in E. subst b. simpl in Hw'. rewrite Hb in Hw'. discriminate.
  - destruct w' as [|y w'].
    + simpl in E. subst b'. simpl in Hw. rewrite Hb' in Hw. discriminate.
    + simpl in *. inversion E; subst. apply andb_true_iff in Hw, Hw'.
      destruct (IH w' b b') as (-> & ->); tauto.
Qed.
Lemma forall_forallb : forall (p : rune -> bool) w, Forall (fun c => p c = true) w <-> forallb p w = true.
Proof. intros. rewrite forallb_forall, Forall_forall. tauto. Qed.
Lemma app_cancel : forall (p a b : gostring), p ++ a = p ++ b -> a = b.
Proof. intros. eapply app_inv_head; eauto. Qed.

(** A greedy run fails when the run is empty. *)
Lemma mt_grp_run_none : forall R p n g rest i c (k : @kont R),
    match rest with [] => True | y :: _ => p y = false end ->
    mt (Grp n (plus g (Chr p))) i rest c k = None.
Proof.
  intros R p n g rest i c k H. rewrite mt_grp. unfold plus. rewrite mt_cat.
  destruct rest; [reflexivity|]. rewrite mt_chr_cons. now rewrite H.
Qed.

(** ** " on t" *)
Lemma on_determined : determined says_on.
Proof.
  intros s t t' (b & -> & Hn & Hw & Hb) (b' & E & Hn' & Hw' & Hb').
  apply app_cancel in E. apply forall_forallb in Hw, Hw'.
  eapply run_unique in E; eauto. tauto.
Qed.
Lemma on_exact : forall i s m, match_at MysqlExplain.on_reg i s = Some m -> says_on s (capd (m_caps m) 1).
Proof.
  intros i s m H. unfold match_at, MysqlExplain.on_reg in H. cbn [cats] in H.
  rewrite mt_cat, mt_str in H. destruct (prefix_of (lit " on ") s) as [u|] eqn:E; [|discriminate].
  apply prefix_of_some in E. subst s.
  destruct (span_run is_word u) as (w & b & -> & Hw & Hb). destruct w as [|c w].
  - unfold word in H. rewrite mt_grp_run_none in H by exact Hb. discriminate.
  - unfold word in H. erewrite mt_grp_greedy in H; [|exact Hw|congruence|exact Hb|reflexivity].
    inversion H; subst. unfold capd. simpl. exists b. split; auto. split; [congruence|].
    split; auto. now apply forall_forallb.
Qed.
Lemma on_complete : forall i s t, says_on s t -> match_at MysqlExplain.on_reg i s <> None.
Proof.
  intros i s t (b & -> & Hn & Hw & Hb). unfold match_at, MysqlExplain.on_reg. cbn [cats].
  rewrite mt_cat, mt_str_app. unfold word. apply forall_forallb in Hw.
  erewrite mt_grp_greedy; [|exact Hw|exact Hn|exact Hb|reflexivity]. congruence.
Qed.

(** ** " Filter: (t.", ... *)
Definition dotted_reg (intro : gostring) : re := cats [str intro; Grp 1 (plus true word); ch 46].
Lemma dotted_determined : forall intro, determined (says_dotted intro).
Proof.
  intros intro s t t' (b & -> & Hn & Hw) (b' & E & Hn' & Hw').
  apply app_cancel in E. apply forall_forallb in Hw, Hw'.
  eapply run_unique in E; eauto; try reflexivity. tauto.
Qed.
Lemma dotted_exact : forall intro i s m, match_at (dotted_reg intro) i s = Some m ->
    says_dotted intro s (capd (m_caps m) 1).
Proof.
  intros intro i s m H. unfold dotted_reg in H. cbn [cats] in H. apply match_at_sound in H.
  destruct H as (i' & c' & HM & _ & Hc & _). rewrite Hc.
  apply M_cat_inv in HM. destruct HM as (i1 & s1 & c1 & H1 & H2).
  apply M_str_inv in H1. destruct H1 as (-> & _ & ->).
  apply M_cat_inv in H2. destruct H2 as (i2 & s2 & c2 & H2 & H3).
  apply M_grp_inv in H2. destruct H2 as (w & c3 & H2 & -> & _ & ->).
  unfold word in H2. apply M_plus_inv in H2. destruct H2 as (w' & E & _ & -> & Hw & Hne).
  apply app_inv_tail in E. subst w'.
  apply M_ch_inv in H3. destruct H3 as (-> & _ & ->). unfold capd. simpl.
  eexists. split; [reflexivity|]. split; auto. now apply forall_forallb.
Qed.
Lemma dotted_complete : forall intro i s t, says_dotted intro s t -> match_at (dotted_reg intro) i s <> None.
Proof.
  intros intro i s t (b & -> & Hn & Hw). unfold match_at, dotted_reg. cbn [cats].
  rewrite mt_cat, mt_str_app, mt_cat. unfold word. apply forall_forallb in Hw.
  erewrite mt_grp_greedy; [|exact Hw|exact Hn|reflexivity|simpl; reflexivity]. congruence.
Qed.

(** ** " Aggregate: f(t." *)
Lemma aggregate_determined : determined says_aggregate.
Proof.
  intros s t t' (f & b & -> & Fn & Fw & Hn & Hw) (f' & b' & E & Fn' & Fw' & Hn' & Hw').
  apply app_cancel in E. apply forall_forallb in Hw, Hw', Fw, Fw'.
  apply (run_unique is_word) in E; auto; try reflexivity. destruct E as [_ E]. apply app_cancel in E.
  eapply run_unique in E; eauto; try reflexivity. tauto.
Qed.
Lemma aggregate_exact : forall i s m, match_at MysqlExplain.aggregate_reg i s = Some m ->
    says_aggregate s (capd (m_caps m) 1).
Proof.
  intros i s m H. unfold MysqlExplain.aggregate_reg in H. cbn [cats] in H. apply match_at_sound in H.
  destruct H as (i' & c' & HM & _ & Hc & _). rewrite Hc.
  apply M_cat_inv in HM. destruct HM as (i1 & s1 & c1 & H1 & H2).
  apply M_str_inv in H1. destruct H1 as (-> & _ & ->).
  apply M_cat_inv in H2. destruct H2 as (i2 & s2 & c2 & H2 & H3).
  unfold word in H2. apply M_plus_inv in H2. destruct H2 as (f & -> & _ & -> & Hf & Hfn).
  apply M_cat_inv in H3. destruct H3 as (i3 & s3 & c3 & H3 & H4).
  apply M_ch_inv in H3. destruct H3 as (-> & _ & ->).
  apply M_cat_inv in H4. destruct H4 as (i4 & s4 & c4 & H4 & H5).
  apply M_grp_inv in H4. destruct H4 as (w & c5 & H4 & -> & _ & ->).
  unfold word in H4. apply M_plus_inv in H4. destruct H4 as (w' & E & _ & -> & Hw & Hne).
  apply app_inv_tail in E. subst w'.
  apply M_ch_inv in H5. destruct H5 as (-> & _ & ->). unfold capd. simpl.
  exists f. eexists. split; [reflexivity|]. split; auto.
  split; [now apply forall_forallb|]. split; auto. now apply forall_forallb.
Qed.
Lemma mt_run_greedy : forall R p w rest i c (k : @kont R) x,
    forallb p w = true -> w <> [] ->
    match rest with [] => True | y :: _ => p y = false end ->
    k (i + length w) rest c = Some x ->
    mt (plus true (Chr p)) i (w ++ rest) c k = Some x.
Proof.
  intros R p w rest i c k x Hw Hne Hr Hk. destruct w as [|y w]; [congruence|].
  unfold plus. rewrite mt_cat. cbn [app]. rewrite mt_chr_cons.
  simpl in Hw. apply andb_true_iff in Hw. destruct Hw as [Hy Hw]. rewrite Hy, star_chr_greedy.
  apply greedy_run_longest; auto. simpl in Hk. now rewrite Nat.add_succ_r in Hk.
Qed.
Lemma aggregate_complete : forall i s t, says_aggregate s t -> match_at MysqlExplain.aggregate_reg i s <> None.
Proof.
  intros i s t (f & b & -> & Fn & Fw & Hn & Hw). unfold match_at, MysqlExplain.aggregate_reg. cbn [cats].
  rewrite mt_cat, mt_str_app, mt_cat. unfold word. apply forall_forallb in Hw, Fw.
  erewrite mt_run_greedy; [|exact Fw|exact Fn|reflexivity|].
  2:{ rewrite mt_cat. change (lit "(" ++ t ++ 46%N :: b) with (40%N :: t ++ 46%N :: b).
      rewrite mt_ch. simpl N.eqb. cbv iota. rewrite mt_cat.
      erewrite mt_grp_greedy; [|exact Hw|exact Hn|reflexivity|simpl; reflexivity]. reflexivity. }
  congruence.
Qed.

(** ** Qualified names *)
Lemma qualified_determined : determined says_qualified.
Proof.
  intros s t t' (q & b & -> & Hq & Hn & Hw & Hb) (q' & b' & E & Hq' & Hn' & Hw' & Hb').
  apply app_cancel in E. apply forall_forallb in Hw, Hw'.
  assert (HQ : q = q' /\ t ++ b = t' ++ b').
  { destruct Hq as [-> | ->], Hq' as [-> | ->]; cbn [app] in E.
    - auto.
    - exfalso. destruct t as [|c t]; [congruence|]. simpl in E. inversion E; subst. simpl in Hw.
      discriminate.
    - exfalso. destruct t' as [|c t']; [congruence|]. simpl in E. inversion E; subst. simpl in Hw'.
      discriminate.
    - apply app_cancel in E. auto. }
  destruct HQ as [_ HE]. eapply run_unique in HE; eauto. tauto.
Qed.
Lemma opt_quote_some : forall i s c (k : @kont match_result), (forall i s c, k i s c <> None) ->
    mt (opt (ch 34)) i s c k <> None.
Proof.
  intros i s c k Hk. unfold opt. rewrite mt_alt. unfold orelse.
  destruct (mt (ch 34) i s c k) eqn:E; [congruence|]. apply Hk.
Qed.
Lemma qualified_match : forall i q t b, (q = [] \/ q = lit """") -> t <> [] -> forallb is_name_char t = true ->
    match b with [] => True | c :: _ => is_name_char c = false end ->
    exists m, match_at PgExplain.on_namespace_reg i (lit " on " ++ q ++ t ++ b) = Some m /\ capd (m_caps m) 1 = t.
Proof.
  intros i q t b Hq Hn Hw Hb. unfold match_at, PgExplain.on_namespace_reg. cbn [cats].
  rewrite mt_cat, mt_str_app, mt_cat.
  set (fin := fun (i' : nat) (s' : gostring) (c : caps) => Some {| m_start := i;
         m_text := firstn (i' - i) (lit " on " ++ q ++ t ++ b); m_caps := c; m_rest := s' |}).
  assert (HX : forall j, exists m, mt (Cat (Grp 1 (plus true (Chr PgExplain.is_word_dot))) (opt (ch 34))) j (t ++ b) [] fin = Some m /\
                  capd (m_caps m) 1 = t).
  { intros j. rewrite mt_cat.
    destruct (mt (opt (ch 34)) (j + length t) b [(1, t)] fin) as [m|] eqn:E.
    - exists m. split.
      + apply mt_grp_greedy; auto.
      + apply mt_sound in E. destruct E as (i' & s' & c' & HM & HF).
        unfold fin in HF. inversion HF; subst m. cbn [m_caps].
        apply M_opt_inv in HM. destruct HM as [HM|(_ & _ & ->)]; [|reflexivity].
        apply M_ch_inv in HM. destruct HM as (_ & _ & ->). reflexivity.
    - exfalso. revert E. apply opt_quote_some. intros. unfold fin. congruence. }
  unfold opt at 1. rewrite mt_alt. destruct Hq as [-> | ->].
  - cbn [app]. destruct (HX (i + length (lit " on "))) as (m & Hm & Hc). exists m. split; auto.
    destruct t as [|c t]; [congruence|]. cbn [app]. rewrite mt_ch.
    destruct (N.eqb_spec 34 c) as [<-|Hne].
    { simpl in Hw. discriminate. }
    cbn [orelse]. rewrite mt_eps. exact Hm.
  - change (lit """" ++ t ++ b) with (34%N :: (t ++ b)). rewrite mt_ch. simpl (N.eqb 34 34). cbv iota.
    destruct (HX (S (i + length (lit " on ")))) as (m & Hm & Hc). rewrite Hm. exists m. split; auto.
Qed.
Lemma qualified_complete : forall i s t, says_qualified s t -> match_at PgExplain.on_namespace_reg i s <> None.
Proof.
  intros i s t (q & b & -> & Hq & Hn & Hw & Hb). apply forall_forallb in Hw.
  destruct (qualified_match i q t b Hq Hn Hw Hb) as (m & -> & _). congruence.
Qed.
Lemma qualified_exact : forall i s m, match_at PgExplain.on_namespace_reg i s = Some m ->
    says_qualified s (capd (m_caps m) 1).
Proof.
  intros i s m H. pose proof H as H0. unfold PgExplain.on_namespace_reg in H0. cbn [cats] in H0.
  apply match_at_sound in H0. destruct H0 as (i' & c' & HM & _ & _ & _).
  apply M_cat_inv in HM. destruct HM as (i1 & s1 & c1 & H1 & H2).
  apply M_str_inv in H1. destruct H1 as (-> & _ & ->).
  apply M_cat_inv in H2. destruct H2 as (i2 & s2 & c2 & H2 & H3).
  assert (HQ : exists q, (q = [] \/ q = lit """") /\ s1 = q ++ s2).
  { apply M_opt_inv in H2. destruct H2 as [H2|(_ & -> & _)].
    - apply M_ch_inv in H2. destruct H2 as (-> & _). exists (lit """"). auto.
    - exists []. auto. }
  destruct HQ as (q & Hq & ->).
  apply M_cat_inv in H3. destruct H3 as (i3 & s3 & c3 & H3 & _).
  apply M_grp_inv in H3. destruct H3 as (w & c5 & H3 & -> & _ & _).
  apply M_plus_inv in H3. destruct H3 as (w' & E & _ & _ & Hw & Hne).
  apply app_inv_tail in E. subst w'.
  destruct (span_run is_name_char (w ++ s3)) as (v & b & E & Hv & Hb).
  assert (Hvn : v <> []).
  { intros ->. destruct w as [|c w]; [congruence|]. simpl in E. subst b. simpl in Hw.
    change (PgExplain.is_word_dot c) with (is_name_char c) in Hw. rewrite Hb in Hw. discriminate. }
  rewrite E in *. destruct (qualified_match i q v b Hq Hvn Hv Hb) as (m' & Hm & Hc).
  rewrite Hm in H. inversion H; subst m'. rewrite Hc. exists q, b. split; auto. split; auto. split; auto.
  split; auto. now apply forall_forallb.
Qed.

(** ** The tables *)
Theorem mysql_table_exact : forall line, mysql_table line (MysqlExplain.extract_table line).
Proof.
  intros line. unfold MysqlExplain.extract_table, mysql_table.
  destruct (find MysqlExplain.on_reg line) as [m|] eqn:E1.
  { left. eapply find_says; eauto using on_exact, on_complete. }
  right. split; [eapply find_silent; eauto using on_complete|].
  destruct (find MysqlExplain.filter_reg line) as [m|] eqn:E2.
  { left. eapply (find_says _ _ (dotted_exact (lit " Filter: (")) (dotted_complete _)); exact E2. }
  right. split; [eapply (find_silent _ _ (dotted_complete (lit " Filter: ("))); exact E2|].
  destruct (find MysqlExplain.sort_reg line) as [m|] eqn:E3.
  { left. eapply (find_says _ _ (dotted_exact (lit " Sort: ")) (dotted_complete _)); exact E3. }
  right. split; [eapply (find_silent _ _ (dotted_complete (lit " Sort: "))); exact E3|].
  destruct (find MysqlExplain.aggregate_reg line) as [m|] eqn:E4.
  { left. eapply find_says; eauto using aggregate_exact, aggregate_complete. }
  right. split; [eapply find_silent; eauto using aggregate_complete|]. reflexivity.
Qed.
Theorem mysql_table_fun : forall line t t', mysql_table line t -> mysql_table line t' -> t = t'.
Proof.
  intros line t t' H H'. unfold mysql_table in *.
  assert (S2 : forall says (A B : Prop), determined says ->
     forall (HA : leftmost says line t \/ (nowhere says line /\ A)) (HB : leftmost says line t' \/ (nowhere says line /\ B)),
     (A -> B -> t = t') -> t = t').
  { intros says A B HD [HA|[HA HA']] [HB|[HB HB']] HI; eauto using leftmost_fun;
      exfalso; eauto using leftmost_nowhere. }
  eapply (S2 _ _ _ on_determined H H'). clear H H'. intros H H'.
  eapply (S2 _ _ _ (dotted_determined _) H H'). clear H H'. intros H H'.
  eapply (S2 _ _ _ (dotted_determined _) H H'). clear H H'. intros H H'.
  eapply (S2 _ _ _ aggregate_determined H H'). congruence.
Qed.

Lemma pg_line_cases : forall line,
    match find PgExplain.on_reg line with
    | Some m => Some (capd (m_caps m) 1)
    | None => match find PgExplain.on_namespace_reg line with
              | Some m => Some (capd (m_caps m) 1)
              | None => match find PgExplain.key_reg line with
                        | Some m => Some (capd (m_caps m) 1)
                        | None => None
                        end
              end
    end = None /\ pg_no_table line \/
    exists t, match find PgExplain.on_reg line with
    | Some m => Some (capd (m_caps m) 1)
    | None => match find PgExplain.on_namespace_reg line with
              | Some m => Some (capd (m_caps m) 1)
              | None => match find PgExplain.key_reg line with
                        | Some m => Some (capd (m_caps m) 1)
                        | None => None
                        end
              end
    end = Some t /\ pg_line_table line t.
Proof.
  intros line. unfold pg_line_table, pg_no_table.
  destruct (find PgExplain.on_reg line) as [m|] eqn:E1.
  { right. eexists. split; [reflexivity|]. left. eapply find_says; eauto using on_exact, on_complete. }
  assert (N1 : nowhere says_on line) by (eapply find_silent; eauto using on_complete).
  destruct (find PgExplain.on_namespace_reg line) as [m|] eqn:E2.
  { right. eexists. split; [reflexivity|]. right. split; auto. left.
    eapply find_says; eauto using qualified_exact, qualified_complete. }
  assert (N2 : nowhere says_qualified line) by (eapply find_silent; eauto using qualified_complete).
  destruct (find PgExplain.key_reg line) as [m|] eqn:E3.
  { right. eexists. split; [reflexivity|]. right. split; auto. right. split; auto.
    eapply (find_says _ _ (dotted_exact (lit " Key: ")) (dotted_complete _)); exact E3. }
  left. split; auto. split; auto. split; auto.
  eapply (find_silent _ _ (dotted_complete (lit " Key: "))); exact E3.
Qed.
Theorem pg_table_exact : forall lines, pg_table lines (PgExplain.extract_table lines).
Proof.
  unfold pg_table. induction lines as [|line lines IH]; [right; auto|].
  cbn [PgExplain.extract_table].
  pose proof (pg_line_cases line) as HC.
  destruct (find PgExplain.on_reg line) as [m|].
  - destruct HC as [[? _]|(t & Ht & HT)]; [discriminate|]. inversion Ht; subst. left.
    exists [], line, lines. auto.
  - destruct (find PgExplain.on_namespace_reg line) as [m|].
    + destruct HC as [[? _]|(t & Ht & HT)]; [discriminate|]. inversion Ht; subst. left.
      exists [], line, lines. auto.
    + destruct (find PgExplain.key_reg line) as [m|].
      * destruct HC as [[? _]|(t & Ht & HT)]; [discriminate|]. inversion Ht; subst. left.
        exists [], line, lines. auto.
      * destruct HC as [[_ HN]|(t & Ht & HT)]; [|discriminate].
        destruct IH as [(b & l & a & E & HB & HL)|[HB HE]].
        -- left. exists (line :: b), l, a. rewrite E at 1. simpl. auto.
        -- right. auto.
Qed.
Lemma pg_line_table_fun : forall line t t', pg_line_table line t -> pg_line_table line t' -> t = t'.
Proof.
  intros line t t' H H'. unfold pg_line_table in *.
  assert (S2 : forall says (A B : Prop), determined says ->
     forall (HA : leftmost says line t \/ (nowhere says line /\ A)) (HB : leftmost says line t' \/ (nowhere says line /\ B)),
     (A -> B -> t = t') -> t = t').
  { intros says A B HD [HA|[HA HA']] [HB|[HB HB']] HI; eauto using leftmost_fun;
      exfalso; eauto using leftmost_nowhere. }
  eapply (S2 _ _ _ on_determined H H'). clear H H'. intros H H'.
  eapply (S2 _ _ _ qualified_determined H H'). clear H H'. intros H H'.
  eapply leftmost_fun; eauto using dotted_determined.
Qed.
Lemma pg_line_table_some : forall line t, pg_line_table line t -> pg_no_table line -> False.
Proof.
  intros line t [H|(_ & [H|(_ & H)])] (H1 & H2 & H3); eauto using leftmost_nowhere.
Qed.
Theorem pg_table_fun : forall lines t t', pg_table lines t -> pg_table lines t' -> t = t'.
Proof.
  intros lines t t' [(b & l & a & -> & HB & HL)|[HB HE]] [(b' & l' & a' & E & HB' & HL')|[HB' HE']].
  - assert (HS : l = l').
    { revert b' HB' E. induction HB as [|x b Hx HB IH]; intros b' HB' E.
      - destruct HB' as [|y b' Hy HB']; simpl in E; inversion E; subst; auto.
        exfalso. eauto using pg_line_table_some.
      - destruct HB' as [|y b' Hy HB']; simpl in E; inversion E; subst.
        + exfalso. eauto using pg_line_table_some.
        + eauto. }
    subst. eauto using pg_line_table_fun.
  - exfalso. rewrite Forall_app in HB'. destruct HB' as [_ HB']. inversion HB'; subst.
    eauto using pg_line_table_some.
  - exfalso. subst lines. rewrite Forall_app in HB. destruct HB as [_ HB]. inversion HB; subst.
    eauto using pg_line_table_some.
  - congruence.
Qed.
