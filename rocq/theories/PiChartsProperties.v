(** C150: the charts of the Performance Insights page. *)
From Coq Require Import String List NArith ZArith QArith Bool Lia Arith Permutation.
From Verif Require Import Base IndexBuild Pi LoadCharts LoadChartsSpec LoadChartsProofs LoadChartsProperties PiPage PiPageSpec PiPageProperties ChartLife ChartLifeSpec ChartLifeProofs ChartLifeRun ChartLifeProperties PiCharts.
Import ListNotations.
Local Open Scope nat_scope.
Local Open Scope list_scope.

(** ** Specification *)
(** How often the reader went to the other tab *)
Fixpoint changes (plain : bool) (es : list page_event) : nat :=
  match es with
  | [] => 0
  | OpenTab b :: es' => match plain, b with true, false | false, true => S (changes b es') | _, _ => changes plain es' end
  | _ :: es' => changes plain es'
  end.
(** the only chart on an element that was not destroyed *)
Definition only_chart (w : @world bars) (i : nat) (x : apex) : Prop :=
  forall y, In y (w_charts w) /\ ax_elm y = i /\ ax_destroyed y = 0 <-> y = x.

(** ** Proofs *)
Lemma elms_nodup : forall (xs : list (@apex bars)),
  (forall m m' x x', nth_error xs m = Some x -> nth_error xs m' = Some x' -> ax_destroyed x = 0 -> ax_destroyed x' = 0 -> ax_elm x = ax_elm x' -> m = m') ->
  NoDup (map ax_elm (filter (fun x => Nat.eqb (ax_destroyed x) 0) xs)).
Proof.
  induction xs as [|x xs IH]; intros H; cbn [filter map]; [constructor|].
  assert (NoDup (map ax_elm (filter (fun x => Nat.eqb (ax_destroyed x) 0) xs))) as T.
  { apply IH. intros m m' y y' Y Y' D D' E. assert (S m = S m') as Q by (apply (H (S m) (S m') y y'); assumption). congruence. }
  destruct (Nat.eqb_spec (ax_destroyed x) 0) as [D|D]; [|exact T]. cbn [map]. constructor; [|exact T]. intros I. apply in_map_iff in I as (y & E & I).
  apply filter_In in I as [I DY]. apply Nat.eqb_eq in DY. apply In_nth_error in I as (m & I). specialize (H 0 (S m) x y eq_refl I D DY (eq_sym E)). discriminate.
Qed.
Lemma alive_count : forall es l w, after es l -> happens (@start bars) es = Ok w -> (forall s, In s l -> sh_kind s <> KPlan) ->
  length (filter (fun x => Nat.eqb (ax_destroyed x) 0) (w_charts w)) = length l.
Proof.
  intros es l w A E NP. destruct (after_runs es l A) as (w' & E' & HH & LC & G & BD). rewrite E in E'. injection E' as <-.
  rewrite <- (map_length ax_elm). rewrite <- (seq_length (length l) 0). apply Permutation_length. apply NoDup_Permutation; [|apply seq_NoDup|].
  - apply elms_nodup. intros m m' x x' X X' D D' EQ. destruct (nth_error l (ax_elm x)) as [s|] eqn:L; [|apply nth_error_None in L; pose proof (BD m x X); lia].
    destruct (G _ s L) as (c & y & _ & _ & _ & _ & _ & U & _). destruct (Nat.eq_dec m c) as [-> | N1]; [|rewrite (U m x X eq_refl N1) in D; discriminate].
    destruct (Nat.eq_dec m' c) as [-> | N2]; [reflexivity|]. rewrite (U m' x' X' (eq_sym EQ) N2) in D'. discriminate.
  - intros i. rewrite in_map_iff, in_seq. split.
    + intros (x & <- & I). apply filter_In in I as [I _]. apply In_nth_error in I as (m & I). pose proof (BD m x I). lia.
    + intros [_ LT]. destruct (nth_error l i) as [s|] eqn:L; [|apply nth_error_None in L; lia]. destruct (G i s L) as (c & x & _ & X & EX & D & _). exists x. split; [exact EX|].
      apply filter_In. split; [now apply nth_error_In with c|]. rewrite D. assert (sh_kind s <> KPlan) as K by (apply NP; now apply nth_error_In with i). destruct (sh_kind s); try reflexivity. congruence.
Qed.

Section Theorems.
  Context (keys srt : list rank -> list rank) (srtr : list raw_load -> list raw_load) (srtn : list gostring -> list gostring)
    (sqls toks : list row).
  Notation life := (page_life keys srt srtr srtn sqls toks).
  (** the components, with [n] tabs left *)
  Definition tabs_inv (n : nat) (p : pi_tabs) (hs : list happening) : Prop :=
    exists a d d', after hs (a ++ [{| sh_kind := top_kind (tb_plain p); sh_bars := st_bars (tb_top p); sh_height := []; sh_title := []; sh_drawn := d; sh_open := true |};
                            {| sh_kind := line_kind (tb_plain p); sh_bars := st_bars (tb_line p); sh_height := []; sh_title := []; sh_drawn := d'; sh_open := true |}]) /\
      length a = 2 * n /\ forall s, In s a -> sh_kind s <> KPlan.
  Lemma top_not_plan : forall b, top_kind b <> KPlan. Proof using. intros []; discriminate. Qed.
  Lemma line_not_plan : forall b, line_kind b <> KPlan. Proof using. intros []; discriminate. Qed.
  Lemma again : forall b k o h t d, k <> KPlan -> drawn_again (B := bars) b {| sh_kind := k; sh_bars := o; sh_height := h; sh_title := t; sh_drawn := d; sh_open := true |} =
    {| sh_kind := k; sh_bars := b; sh_height := h; sh_title := t; sh_drawn := S d; sh_open := true |}.
  Proof using. intros b [] o h t d N; try reflexivity. congruence. Qed.
  Lemma redraw_top : forall n p hs p', tabs_inv n p hs -> tb_plain p' = tb_plain p -> tb_line p' = tb_line p -> tabs_inv n p' (hs ++ [Redraw (2 * n) (st_bars (tb_top p'))]).
  Proof using.
    intros n p hs p' (a & d & d' & A & L & NP) E1 E2. rewrite <- L. exists a, (S d), d'. split; [|split; [exact L|exact NP]]. rewrite E1, E2.
    cbn [app] in A |- *. apply (af_redraw _ a _ _ (st_bars (tb_top p'))) in A. rewrite again in A by apply top_not_plan. exact A.
  Qed.
  Lemma redraw_line : forall n p hs p', tabs_inv n p hs -> tb_plain p' = tb_plain p -> tb_top p' = tb_top p -> tabs_inv n p' (hs ++ [Redraw (2 * n + 1) (st_bars (tb_line p'))]).
  Proof using.
    intros n p hs p' (a & d & d' & A & L & NP) E1 E2. exists a, d, (S d'). split; [|split; [exact L|exact NP]]. rewrite E1, E2.
    match type of A with after _ (a ++ [?s; ?u]) => replace (a ++ [s; u]) with ((a ++ [s]) ++ [u]) in A by (now rewrite <- app_assoc) end.
    apply (af_redraw _ _ _ _ (st_bars (tb_line p'))) in A. rewrite again in A by apply line_not_plan. rewrite app_length, L in A. cbn [length] in A. rewrite <- app_assoc in A. exact A.
  Qed.
  Lemma switch : forall n p hs p', tabs_inv n p hs -> tabs_inv (S n) p' (hs ++ [Close (2 * n); Close (2 * n + 1)] ++ opening p').
  Proof using.
    intros n p hs p' (a & d & d' & A & L & NP). unfold opening. cbn [app].
    match type of A with after _ (a ++ [?s; ?u]) => set (t0 := s) in A; set (u0 := u) in A end.
    apply (af_close _ a t0 [u0]) in A. replace (a ++ closed t0 :: [u0]) with ((a ++ [closed t0]) ++ [u0]) in A by (now rewrite <- app_assoc).
    apply (af_close _ (a ++ [closed t0]) u0 []) in A. rewrite app_length, L in A. cbn [length] in A.
    apply (af_open _ _ (top_kind (tb_plain p')) (st_bars (tb_top p')) [] []) in A. apply (af_open _ _ (line_kind (tb_plain p')) (st_bars (tb_line p')) [] []) in A.
    exists (a ++ [closed t0; closed u0]), 1, 1. repeat (rewrite <- app_assoc in A; cbn [app] in A). rewrite <- app_assoc. cbn [app]. split; [exact A|]. split; [rewrite app_length, L; cbn [length]; lia|].
    intros s I. apply in_app_or in I as [I|[<- |[<- |[]]]]; [now apply NP|apply top_not_plan|apply line_not_plan].
  Qed.
  Lemma life_inv : forall es n p hs p' hs', tabs_inv n p hs -> life n p es = Ok (p', hs') -> tabs_inv (n + changes (tb_plain p) es) p' (hs ++ hs').
  Proof using.
    intros es. induction es as [|e es IH]; intros n p hs p' hs' I E; cbn [page_life changes] in *; [injection E as <- <-; rewrite app_nil_r, Nat.add_0_r; exact I|].
    destruct (page_react keys srt srtr srtn sqls toks p e) as [p1| |] eqn:R; cbn [obind] in E; try discriminate.
    destruct e as [b|e|e]; cbn [charts_of] in E; cbn [page_react] in R.
    - destruct (Bool.eqb b (tb_plain p)) eqn:EB.
      + injection R as <-. destruct (life n p es) as [r| |] eqn:F; cbn [obind] in E; try discriminate. injection E as <- <-. destruct r as [p2 h2]. cbn [fst snd app].
        specialize (IH n p hs p2 h2 I F). apply Bool.eqb_prop in EB as ->. destruct (tb_plain p); exact IH.
      + injection R as <-. destruct (life (S n) _ es) as [r| |] eqn:F; cbn [obind] in E; try discriminate. destruct r as [p2 h2]. cbn [fst snd] in E.
        match type of E with Ok (_, ?q) = _ => assert (hs' = q) as -> by congruence end. assert (p2 = p') as -> by congruence. clear E.
        specialize (IH _ _ _ _ _ (switch n p hs (open_tab keys srt srtn sqls toks b) I) F). cbn [tb_plain open_tab] in IH. rewrite app_assoc.
        replace (n + match tb_plain p with true => if b then changes (tb_plain p) es else S (changes b es) | false => if b then S (changes b es) else changes (tb_plain p) es end) with (S n + changes b es); [exact IH|].
        destruct b, (tb_plain p); try discriminate; lia.
    - destruct (react keys srt srtr srtn (rows_of_tab sqls toks (tb_plain p)) sqls (top_view (tb_plain p)) (tb_top p) e) as [s| |] eqn:RE; cbn [obind] in R; try discriminate. injection R as <-.
      destruct (life n _ es) as [r| |] eqn:F; cbn [obind] in E; try discriminate. injection E as <- <-. destruct r as [p2 h2]. cbn [fst snd]. rewrite app_assoc. refine (IH _ _ _ _ _ _ F). clear IH F.
      assert (st_bars s = st_bars (tb_top p) -> tabs_inv n {| tb_plain := tb_plain p; tb_top := s; tb_line := tb_line p |} (hs ++ [])) as SAME by (intros Q; unfold tabs_inv; rewrite app_nil_r; cbn [tb_plain tb_top tb_line]; rewrite Q; exact I).
      destruct e as [i j|db|k]; cbn [redrawing react] in *.
      + apply SAME. unfold click in RE. destruct (Z.ltb i 0); [now injection RE as <-|]. destruct (at_index _ i); [|discriminate]. destruct (at_index _ j); [|discriminate].
        destruct (tokenized _); [|now injection RE as <-]. destruct (plain_sqls _ _ _); cbn [obind] in RE; try discriminate. now injection RE as <-.
      + injection RE as <-. unfold toggle in *. cbn [tb_top] in *. destruct (Nat.ltb 1 _ && includes _ db)%bool; [|now apply SAME].
        match goal with |- tabs_inv n ?q _ => exact (redraw_top n p hs q I eq_refl eq_refl) end.
      + apply SAME. unfold choose in RE. destruct (tokenized _); [|now injection RE as <-]. destruct (plain_sqls _ _ _); cbn [obind] in RE; try discriminate. destruct (nth_error _ k); now injection RE as <-.
    - destruct (react keys srt srtr srtn (rows_of_tab sqls toks (tb_plain p)) sqls (line_view (tb_plain p)) (tb_line p) e) as [s| |] eqn:RE; cbn [obind] in R; try discriminate. injection R as <-.
      destruct (life n _ es) as [r| |] eqn:F; cbn [obind] in E; try discriminate. injection E as <- <-. destruct r as [p2 h2]. cbn [fst snd]. rewrite app_assoc. refine (IH _ _ _ _ _ _ F). clear IH F.
      assert (st_bars s = st_bars (tb_line p) -> tabs_inv n {| tb_plain := tb_plain p; tb_top := tb_top p; tb_line := s |} (hs ++ [])) as SAME by (intros Q; unfold tabs_inv; rewrite app_nil_r; cbn [tb_plain tb_top tb_line]; rewrite Q; exact I).
      destruct e as [i j|db|k]; cbn [redrawing react] in *.
      + apply SAME. unfold click in RE. destruct (Z.ltb i 0); [now injection RE as <-|]. destruct (at_index _ i); [|discriminate]. destruct (at_index _ j); [|discriminate].
        destruct (tokenized _); [|now injection RE as <-]. destruct (plain_sqls _ _ _); cbn [obind] in RE; try discriminate. now injection RE as <-.
      + injection RE as <-. unfold toggle in *. cbn [tb_line] in *. destruct (Nat.ltb 1 _ && includes _ db)%bool; [|now apply SAME].
        match goal with |- tabs_inv n ?q _ => exact (redraw_line n p hs q I eq_refl eq_refl) end.
      + apply SAME. unfold choose in RE. destruct (tokenized _); [|now injection RE as <-]. destruct (plain_sqls _ _ _); cbn [obind] in RE; try discriminate. destruct (nth_error _ k); now injection RE as <-.
  Qed.
  Lemma life_page : forall es n p p', page_reacts keys srt srtr srtn sqls toks p es = Ok p' <-> exists hs, life n p es = Ok (p', hs).
  Proof using.
    intros es. induction es as [|e es IH]; intros n p p'; cbn [page_reacts page_life].
    - split; [intros H; injection H as <-; now exists []|intros (hs & H); now injection H as <- <-].
    - destruct (page_react keys srt srtr srtn sqls toks p e) as [p1| |]; cbn [obind]; [|split; [discriminate|intros (hs & H); discriminate]..].
      destruct (charts_of srtn sqls toks n p p1 e) as [k hs0]. rewrite (IH k p1 p'). split.
      + intros (hs & ->). cbn [obind fst snd]. eauto.
      + intros (hs & H). destruct (life k p1 es) as [r| |] eqn:F; cbn [obind] in H; try discriminate. injection H as <- <-. exists (snd r). now destruct r.
  Qed.
  Lemma start_inv : tabs_inv 0 (open_tab keys srt srtn sqls toks true) (opening (open_tab keys srt srtn sqls toks true)).
  Proof using.
    exists [], 1, 1. split; [|split; [reflexivity|intros s []]]. unfold opening.
    match goal with |- after [Open ?k ?b ?h ?t; Open ?k' ?b' ?h' ?t'] _ => exact (af_open _ _ k' b' h' t' (af_open [] [] k b h t af_nil)) end.
  Qed.

  Lemma whole_steps : forall A B C (x : outcome (A * B)) (f : B -> outcome C) p w,
    (do r <- x; do w <- f (snd r); Ok (fst r, w)) = Ok (p, w) <-> exists hs, x = Ok (p, hs) /\ f hs = Ok w.
  Proof using.
    intros A B C x f p w. split.
    - destruct x as [[p' hs]| |]; cbn [obind fst snd]; [|discriminate|discriminate]. destruct (f hs) as [w'| |] eqn:E; cbn [obind]; [|discriminate|discriminate]. intros H. injection H as -> ->. exists hs. split; [reflexivity|exact E].
    - intros (hs & -> & E). cbn [obind fst snd]. rewrite E. reflexivity.
  Qed.
  Lemma whole_eq : forall es p w, page_whole keys srt srtr srtn sqls toks es = Ok (p, w) <->
    exists hs, life 0 (open_tab keys srt srtn sqls toks true) es = Ok (p, hs) /\ happens start (opening (open_tab keys srt srtn sqls toks true) ++ hs) = Ok w.
  Proof using. intros es p w. exact (whole_steps _ _ _ (life 0 (open_tab keys srt srtn sqls toks true) es) (fun hs => happens start (opening (open_tab keys srt srtn sqls toks true) ++ hs)) p w). Qed.

  (** Charts never make the page throw. *)
  Theorem page_total : forall es p, page_reacts keys srt srtr srtn sqls toks (open_tab keys srt srtn sqls toks true) es = Ok p <->
    exists w, page_whole keys srt srtr srtn sqls toks es = Ok (p, w).
  Proof using.
    intros es p. rewrite (life_page es 0). split.
    - intros (hs & E). destruct (life_inv _ _ _ _ _ _ start_inv E) as (a & d & d' & A & _). destruct (after_runs _ _ A) as (w & W & _). exists w. apply whole_eq. exists hs. split; [exact E|exact W].
    - intros (w & E). apply whole_eq in E as (hs & E & _). exists hs. exact E.
  Qed.
  (** After [n] changes of tab, the components on the page are those with the numbers 2n and
      2n+1, and each has one chart that was not destroyed, which shows the bars of its state.
      There are 2n+2 such charts in all, so that 2n are left of tabs that are gone. *)
  Theorem page_charts : forall es p w, page_whole keys srt srtr srtn sqls toks es = Ok (p, w) -> let n := changes true es in
    (exists x, only_chart w (2 * n) x /\ options_of (w_heap w) (if tb_plain p then KTop else KTokTop) (2 * n) (st_bars (tb_top p)) [] [] (ax_option x)) /\
    (exists x, only_chart w (2 * n + 1) x /\ options_of (w_heap w) (if tb_plain p then KLine else KTokLine) (2 * n + 1) (st_bars (tb_line p)) [] [] (ax_option x)) /\
    length (filter (fun x => Nat.eqb (ax_destroyed x) 0) (w_charts w)) = 2 * n + 2 /\
    forall x, In x (w_charts w) -> ax_elm x <= 2 * n + 1.
  Proof using.
    intros es p w E n. apply whole_eq in E as (hs & F & W).
    destruct (life_inv _ _ _ _ _ _ start_inv F) as (a & d & d' & A & L & NP). cbn [tb_plain open_tab] in L. change (0 + changes true es) with n in L.
    match type of A with after _ (a ++ [?s; ?u]) => set (t0 := s) in A; set (u0 := u) in A end.
    destruct (charts_follow _ _ A) as (w' & W' & _ & G). assert (Ok w' = Ok w) as Q by (exact (eq_trans (eq_sym W') W)). injection Q as ->. clear W'.
    destruct (charts_alive _ _ A w W) as [BD UQ].
    assert (forall i s, nth_error (a ++ [t0; u0]) i = Some s -> sh_open s = true -> exists x, only_chart w i x /\ options_of (w_heap w) (sh_kind s) i (sh_bars s) (sh_height s) (sh_title s) (ax_option x)) as ONE.
    { intros i s S1 OP. destruct (UQ i s S1 OP) as (x & X). exists x. split; [exact X|]. destruct (G i s S1) as (_ & c & y & Y & EY & O & D & _).
      assert (y = x) as <-; [|exact O]. apply X. split; [now apply nth_error_In with c|]. split; [exact EY|]. destruct D as [(_ & _ & D)|[D _]]; [congruence|exact D]. }
    split; [|split; [|split]].
    - apply (ONE (2 * n) t0); [|reflexivity]. rewrite <- L, nth_error_app2, Nat.sub_diag by lia. reflexivity.
    - apply (ONE (2 * n + 1) u0); [|reflexivity]. rewrite <- L, nth_error_app2 by lia. replace (length a + 1 - length a) with 1 by lia. reflexivity.
    - rewrite (alive_count _ _ _ A W); [rewrite app_length, L; reflexivity|]. intros s I. apply in_app_or in I as [I|[<- |[<- |[]]]]; [now apply NP|apply top_not_plan|apply line_not_plan].
    - intros x X. destruct (BD x X) as (s & S1 & _). assert (ax_elm x < length (a ++ [t0; u0])) as LT by (apply nth_error_Some; intros Q; exact (eq_ind (Some s) (fun o => match o with Some _ => True | None => False end) Logic.I None (eq_trans (eq_sym S1) Q))). rewrite app_length, L in LT. cbn [length] in LT. lia.
  Qed.
End Theorems.

(** With C115 and C116: the chart of the timeline that is alive in the open tab shows exactly
    the loads, of half a per cent or more, of the databases checked there; that of the ranking
    shows only loads of the databases checked there. *)
Theorem live_bars : forall keys srt srtr srtn sqls toks es p w, (forall l, Permutation (keys l) l) -> is_sort rank_less srt -> is_sort sltb srtn ->
  Forall distinct_row sqls -> Forall distinct_row toks -> page_whole keys srt srtr srtn sqls toks es = Ok (p, w) -> let n := changes true es in
  let rows := if tb_plain p then sqls else toks in
  (exists x b, only_chart w (2 * n + 1) x /\ at_path (w_heap w) (ax_option x) ["series"%string] (JBars b) /\
     forall q, (exists bs, In bs b /\ In (Some q) bs) <-> bar_for (if tb_plain p then Timeline else TokTimeline) rows (st_checked (tb_line p)) q) /\
  (exists x b, only_chart w (2 * n) x /\ at_path (w_heap w) (ax_option x) ["series"%string] (JBars b) /\
     forall q bs, In bs b -> In (Some q) bs -> bar_for (if tb_plain p then Ranking else TokRanking) rows (st_checked (tb_top p)) q).
Proof.
  intros keys srt srtr srtn sqls toks es p w KEYS SRT SRTN D1 D2 E n rows.
  destruct (page_charts _ _ _ _ _ _ es p w E) as ((x & X & OX) & (y & Y & OY) & _). fold n in X, OX, Y, OY.
  assert (exists w, page_whole keys srt srtr srtn sqls toks es = Ok (p, w)) as EX by (exists w; exact E). apply page_total in EX. clear E.
  destruct (tabs_apart _ _ _ _ _ _ es p EX) as ((e1 & R1) & (e2 & R2)).
  assert (Forall distinct_row (rows_of_tab sqls toks (tb_plain p))) as DR by (unfold rows_of_tab; destruct (tb_plain p); assumption).
  pose proof (pi_chart_follows_checks keys srt srtr srtn _ _ _ _ _ KEYS SRT SRTN DR R1) as (_ & _ & B1 & _).
  pose proof (pi_chart_follows_checks keys srt srtr srtn _ _ _ _ _ KEYS SRT SRTN DR R2) as (_ & _ & B2 & B3 & _).
  change (rows_of_tab sqls toks (tb_plain p)) with rows in *. split.
  - exists y, (st_bars (tb_line p)). split; [exact Y|]. split; [exact (proj1 OY)|]. intros q. change (if tb_plain p then Timeline else TokTimeline) with (line_view (tb_plain p)). split.
    + intros (bs & I1 & I2). exact (B2 bs q I1 I2).
    + intros F. apply B3; [|exact F]. unfold timeline, line_view. destruct (tb_plain p); [left|right]; reflexivity.
  - exists x, (st_bars (tb_top p)). split; [exact X|]. split; [exact (proj1 OX)|]. intros q bs I1 I2. exact (B1 bs q I1 I2).
Qed.

(** Two changes of tab and a checkbox: six charts are alive, on six elements. *)
Definition ex_page := page_whole (fun x => x) (sort_by rank_less) (sort_by raw_less) (sort_by sltb) ex_rows ex_rows
  [AtTop (Click 0 0); OpenTab false; AtLine (Toggle (lit "b")); OpenTab false; OpenTab true; AtTop (Toggle (lit "b"))].
Definition ex_page_deaths : list (nat * nat) := match ex_page with Ok (_, w) => map (fun x => (ax_elm x, ax_destroyed x)) (w_charts w) | _ => [] end.
Example page_charts_ex : ex_page_deaths = [(0, 0); (1, 0); (2, 0); (3, 1); (3, 0); (4, 1); (5, 0); (4, 0)].
Proof. vm_compute. reflexivity. Qed.

(** The same page meets the hypotheses of [live_bars]: two databases are
    checked for the ranking, one for the timeline. *)
Example live_bars_ex : (forall l : list rank, Permutation ((fun x => x) l) l) /\ is_sort rank_less (sort_by rank_less) /\ is_sort sltb (sort_by sltb) /\ Forall distinct_row ex_rows /\
  match ex_page with Ok (p, _) => st_checked (tb_top p) = [lit "a"; lit "b"] /\ st_checked (tb_line p) = [lit "a"] /\ length (st_bars (tb_line p)) = 1 | _ => False end.
Proof. destruct ex_orders as (O1 & O2 & O3 & O4 & O5). split; [exact O1|]. split; [exact O2|]. split; [exact O4|]. split; [exact O5|]. vm_compute. repeat split; reflexivity. Qed.

Print Assumptions page_total.
Print Assumptions page_charts.
Print Assumptions live_bars.
