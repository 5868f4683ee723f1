(** C115, C116: what the Performance Insights page shows and names after any clicks,
    checks and choices. *)
From Coq Require Import String List NArith ZArith QArith Bool Lia Arith Permutation.
From Verif Require IndexBuildProofs.
From Verif Require Import Base IndexBuild Pi PiSpec LoadCharts LoadChartsSpec LoadChartsProofs LoadChartsProperties DigCommand PiPage PiPageSpec.
Import ListNotations.
Local Open Scope nat_scope.

Lemma table_row : forall rows db l, In (db, l) (table_loads rows) <-> exists r, In r rows /\ row_load r db (sl_sql l) l.
Proof.
  intros rows db l. unfold table_loads. rewrite in_flat_map. split.
  - intros (r & Hr & H). exists r. split; [exact Hr|]. apply in_flat_map in H. destruct H as (d & Hd & H).
    apply in_map_iff in H. destruct H as (l' & E & Hl). injection E as E1 E2. subst l'. exists d. auto.
  - intros (r & Hr & d & Hd & E & Hl & _). exists r. split; [exact Hr|]. apply in_flat_map. exists d. split; [exact Hd|].
    apply in_map_iff. exists l. subst db. auto.
Qed.

Lemma nodup_map_inj : forall A B (f : A -> B) l x y, NoDup (map f l) -> In x l -> In y l -> f x = f y -> x = y.
Proof.
  intros A B f. induction l as [|a l IH]; intros x y ND Hx Hy E; [easy|]. cbn [map] in ND. inversion ND as [|b c N1 N2]; subst.
  destruct Hx as [->|Hx], Hy as [->|Hy].
  - reflexivity.
  - elim N1. rewrite E. now apply in_map.
  - elim N1. rewrite <- E. now apply in_map.
  - now apply IH.
Qed.
Lemma distinct_one_load : forall r db sql l l', distinct_row r -> row_load r db sql l -> row_load r db sql l' -> l = l'.
Proof.
  intros r db sql l l' D H H'. set (ps := flat_map (fun d : db_load => map (fun l : load => (dl_name d, l)) (dl_sqls d)) (tl_dbs r)).
  assert (E : row_keys r = map (fun x : gostring * load => (fst x, sl_sql (snd x))) ps).
  { unfold row_keys, ps. induction (tl_dbs r) as [|d ds IH]; [reflexivity|]. cbn [flat_map]. rewrite map_app, map_map, IH. reflexivity. }
  assert (IN : forall l0, row_load r db sql l0 -> In (db, l0) ps /\ sl_sql l0 = sql).
  { intros l0 (d & Hd & N & Hl & Q). split; [|exact Q]. apply in_flat_map. exists d. split; [exact Hd|]. apply in_map_iff. exists l0. subst db. auto. }
  destruct (IN l H) as [I1 Q1], (IN l' H') as [I2 Q2]. unfold distinct_row in D. rewrite E in D.
  assert (K : (db, l) = (db, l')) by (apply (nodup_map_inj _ _ _ ps _ _ D I1 I2); cbn [fst snd]; now rewrite Q1, Q2).
  now injection K.
Qed.

Lemma half : forall q, (5 # 1000 <= q)%Q <-> (1 # 200 <= q)%Q.
Proof. intros q. assert (E : (5 # 1000 == 1 # 200)%Q) by reflexivity. now rewrite E. Qed.

Section Proofs.
  Context (keys srt : list rank -> list rank) (srtr : list raw_load -> list raw_load) (srtn : list gostring -> list gostring)
    (rows raws : list row).
  Hypothesis KEYS : forall l, Permutation (keys l) l.
  Hypothesis SRT : is_sort rank_less srt.
  Hypothesis SRTR : is_sort raw_less srtr.
  Hypothesis SRTN : is_sort sltb srtn.
  Hypothesis DIST : Forall distinct_row rows.
  Notation draw := (draw keys srt rows).
  Notation mount := (mount keys srt srtn rows).
  Notation react := (react keys srt srtr srtn rows raws).
  Notation reacts := (reacts keys srt srtr srtn rows raws).

  (** ** The bars *)
  Lemma timeline_bars : forall checked p,
      (exists bars, In bars (map (fun s => map (fun p => option_map pick_of_prop (p_prop p)) (se_data s)) (load_series checked (5 # 1000) rows)) /\
         In (Some p) bars) <->
      bar_for Timeline rows checked p.
  Proof using DIST.
    intros checked p. destruct (load_series_aligned checked (5 # 1000) rows DIST) as (_ & IFF & AL). split.
    - intros (bars & HB & HP). apply in_map_iff in HB. destruct HB as (s & <- & Hs). apply in_map_iff in HP.
      destruct HP as (q & E & Hq). apply In_nth_error in Hq. destruct Hq as (i & Hi). destruct (AL s Hs) as (LEN & PT).
      destruct (nth_error rows i) as [r|] eqn:Er.
      2:{ apply nth_error_None in Er. assert (K : i < length (se_data s)) by (apply nth_error_Some; rewrite Hi; discriminate). lia. }
      destruct (PT i r q Er Hi) as [(l & (RL & TG & TH) & _ & _ & pr & E1 & _ & _ & E2 & E3 & E4)|(_ & _ & E1)].
      + rewrite E1 in E. cbn [option_map] in E. injection E as <-. unfold bar_for, pick_of_prop. cbn [pk_db pk_sql pk_tok].
        rewrite E2, E3, E4. split; [exact TG|]. exists r, l. split; [eapply nth_error_In; eauto|]. split; [exact RL|]. split; [reflexivity|].
        intros _. apply half. exact TH.
      + rewrite E1 in E. discriminate E.
    - intros (TG & r & l & Hr & RL & ET & TH).
      assert (DL : drawn_load checked (5 # 1000) r (pk_db p) (pk_sql p) l) by (split; [exact RL|split; [exact TG|apply half; exact (TH (or_introl eq_refl))]]).
      destruct (proj2 (IFF (pk_db p) (pk_sql p)) (ex_intro _ r (ex_intro _ l (conj Hr DL)))) as (s & Hs & E1 & E2).
      destruct (AL s Hs) as (LEN & PT). apply In_nth_error in Hr. destruct Hr as (i & Hi).
      destruct (nth_error (se_data s) i) as [q|] eqn:Eq.
      2:{ apply nth_error_None in Eq. assert (K : i < length rows) by (apply nth_error_Some; rewrite Hi; discriminate). lia. }
      eexists. split; [apply in_map; exact Hs|]. apply in_map_iff. exists q. split; [|eapply nth_error_In; eauto].
      destruct (PT i r q Hi Eq) as [(l' & (RL' & _) & _ & _ & pr & F1 & _ & _ & F2 & F3 & F4)|(NO & _)].
      + rewrite F1. cbn [option_map]. f_equal. unfold pick_of_prop. rewrite F2, F3, F4, E1, E2.
        assert (l' = l) as ->.
        { rewrite Forall_forall in DIST. apply (distinct_one_load r (pk_db p) (pk_sql p)); [apply DIST; eapply nth_error_In; eauto| |exact RL].
          rewrite <- E1, <- E2. exact RL'. }
        rewrite ET. destruct p; reflexivity.
      + elim (NO l). rewrite E1, E2. exact DL.
  Qed.

  Lemma bar_timeline : forall checked p, bar_for TokTimeline rows checked p <-> bar_for Timeline rows checked p.
  Proof using.
    intros checked p. unfold bar_for, timeline. split; intros (A & r & l & H1 & H2 & H3 & H4); (split; [exact A|]); exists r, l;
      (split; [exact H1|]); (split; [exact H2|]); (split; [exact H3|]); intros _; apply H4; tauto.
  Qed.
  Lemma ranking_bars : forall v checked p, v = Ranking \/ v = TokRanking ->
      In (Some p) (map (fun r => Some (pick_of_rank r)) (ranking keys srt 20 checked rows)) -> bar_for v rows checked p.
  Proof using KEYS SRT.
    intros v checked p V H. destruct (ranking_top keys srt 20 checked rows KEYS SRT) as (_ & IN & _).
    apply in_map_iff in H. destruct H as (k & E & Hk). injection E as <-.
    destruct (IN k Hk) as (A & _ & _ & l & B & C & D). apply table_row in B. destruct B as (r & Hr & RL).
    unfold bar_for, pick_of_rank. cbn [pk_db pk_sql pk_tok]. split; [exact A|]. exists r, l. split; [exact Hr|].
    split; [rewrite <- C; exact RL|]. split; [now rewrite D|]. intros [T|T]; destruct V as [V|V]; congruence.
  Qed.
  Lemma bars_drawn : forall v checked bars p, In bars (draw v checked) -> In (Some p) bars -> bar_for v rows checked p.
  Proof using KEYS SRT DIST.
    intros v checked bars p HB HP. destruct v; cbn [PiPage.draw] in HB.
    - apply timeline_bars. exists bars. split; assumption.
    - destruct HB as [<-|[]]. apply ranking_bars; auto.
    - apply bar_timeline, timeline_bars. exists bars. split; assumption.
    - destruct HB as [<-|[]]. apply ranking_bars; auto.
  Qed.

  (** ** What holds at all times *)
  Record kept_true (v : view) (s : pi_state) : Prop := {
    kt_bars : st_bars s = draw v (st_checked s);
    kt_names : forall db, In db (st_checked s) -> has_database rows db;
    kt_once : NoDup (st_checked s);
    kt_selected : forall p, st_selected s = Some p -> exists checked, bar_for v rows checked p;
    kt_checked : v <> Ranking -> forall p, st_selected s = Some p -> In (pk_db p) (st_checked s);
    kt_raw : forall x, st_raw s = Some x ->
      tokenized v = true /\ exists p, st_selected s = Some p /\
        exists l, plain_sqls srtr raws s = Ok l /\ In x l
  }.
  Lemma bar_any : forall v checked checked' p, bar_for v rows checked p -> In (pk_db p) checked' -> bar_for v rows checked' p.
  Proof using. intros v c c' p (_ & H) K. split; assumption. Qed.

  Lemma databases_names : forall db, In db (all_databases srtn (Some rows)) <-> has_database rows db.
  Proof using SRTN. intros db. exact (proj2 (proj2 (databases_listed srtn rows SRTN)) db). Qed.
  Lemma mount_true : forall v, kept_true v (mount v).
  Proof using SRTN.
    intros v. split; cbn [mount st_bars st_checked st_selected st_raw].
    - reflexivity.
    - intros db H. apply databases_names. destruct (all_databases srtn (Some rows)) as [|d ds]; cbn [first_database] in H; [easy|].
      destruct H as [<-|[]]. now left.
    - destruct (all_databases srtn (Some rows)); cbn [first_database]; [constructor|]. constructor; [easy|constructor].
    - intros p K; inversion K.
    - intros _ p K; inversion K.
    - intros x K; inversion K.
  Qed.

  Lemma flip_in : forall c d x, In x (flip c d) <-> (x = d /\ ~ In d c) \/ (x <> d /\ In x c).
  Proof using.
    intros c d x. unfold flip. destruct (includes c d) eqn:E.
    - apply includes_in in E. rewrite filter_In. split.
      + intros (H & K). right. split; [|exact H]. intros ->. rewrite seqb_refl in K. discriminate K.
      + intros [(_ & K)|(N & H)]; [easy|]. split; [exact H|]. destruct (seqb x d) eqn:Q; [|reflexivity]. apply seqb_eq in Q. easy.
    - assert (N : ~ In d c) by (intros K; apply includes_in in K; congruence). rewrite in_app_iff. cbn [In]. split.
      + intros [H|[<-|[]]]; [|left; auto]. right. split; [|exact H]. intros ->. easy.
      + intros [(-> & _)|(_ & H)]; auto.
  Qed.
  Lemma flip_nodup : forall c d, NoDup c -> NoDup (flip c d).
  Proof using.
    intros c d ND. unfold flip. destruct (includes c d) eqn:E; [now apply NoDup_filter|].
    assert (N : ~ In d c) by (intros K; apply includes_in in K; congruence).
    apply IndexBuildProofs.NoDup_snoc; assumption.
  Qed.

  Lemma at_index_in : forall A (l : list A) i x, at_index l i = Some x -> In x l.
  Proof using. intros A l i x H. unfold at_index in H. destruct (Z.ltb i 0); [discriminate H|]. eapply nth_error_In; eauto. Qed.

  Lemma react_true : forall v s e s', kept_true v s -> react v s e = Ok s' -> kept_true v s'.
  Proof using KEYS SRT SRTN DIST.
    intros v s e s' KT H. pose proof KT as [K1 K2 K3 K4 K5 K6]. destruct e as [i j|db|k]; cbn [PiPage.react] in H.
    - unfold click in H. destruct (Z.ltb i 0); [injection H as <-; exact KT|].
      destruct (at_index (st_bars s) i) as [bars|] eqn:E1; [|discriminate H].
      destruct (at_index bars j) as [p|] eqn:E2; [|discriminate H]. cbv zeta in H.
      set (s1 := {| st_checked := st_checked s; st_bars := st_bars s; st_selected := p; st_raw := if tokenized v then None else st_raw s |}) in *.
      assert (E : s' = s1).
      { destruct (tokenized v); [|injection H as <-; reflexivity]. destruct (plain_sqls srtr raws s1) as [l|m|]; cbn [obind] in H; [|discriminate H|discriminate H].
        injection H as <-. reflexivity. }
      assert (B : forall q, st_selected s1 = Some q -> bar_for v rows (st_checked s) q).
      { intros q Q. cbn [s1 st_selected] in Q. subst p. apply at_index_in in E1, E2. rewrite K1 in E1. eapply bars_drawn; eauto. }
      subst s'. split; cbn [s1 st_bars st_checked].
      + exact K1.
      + exact K2.
      + exact K3.
      + intros q Q. exists (st_checked s). exact (B q Q).
      + intros _ q Q. exact (proj1 (B q Q)).
      + intros x Q. cbn [s1 st_raw] in Q. destruct (tokenized v) eqn:T; [discriminate Q|]. destruct (K6 x Q) as (C & _). discriminate C.
    - injection H as <-. unfold toggle. cbv zeta.
      destruct (Nat.ltb 1 (length (all_databases srtn (Some rows))) && includes (all_databases srtn (Some rows)) db) eqn:G; [|exact KT].
      apply andb_true_iff in G. destruct G as [_ G]. apply includes_in, databases_names in G.
      set (kept := match v with Ranking => true | _ => match st_selected s with Some p => includes (flip (st_checked s) db) (pk_db p) | None => false end end).
      split; cbn [st_bars st_checked st_selected st_raw].
      + reflexivity.
      + intros d D. apply flip_in in D. destruct D as [(-> & _)|(_ & D)]; auto.
      + now apply flip_nodup.
      + intros p P. apply K4. destruct kept; [exact P|discriminate P].
      + intros V p P. destruct kept eqn:KE; [|discriminate P]. unfold kept in KE. rewrite P in KE. apply includes_in. destruct v; try exact KE. easy.
      + intros x X. destruct kept; [|discriminate X]. destruct (K6 x X) as (T & p & P & l & L & XL). split; [exact T|].
        exists p. split; [exact P|]. exists l. split; [|exact XL]. unfold plain_sqls in *. cbn [st_selected]. exact L.
    - unfold choose in H. destruct (tokenized v) eqn:T; [|injection H as <-; exact KT].
      destruct (plain_sqls srtr raws s) as [l|m|] eqn:P; cbn [obind] in H; [|discriminate H|discriminate H].
      destruct (nth_error l k) as [x|] eqn:N; [|injection H as <-; exact KT].
      injection H as <-. split; cbn [st_bars st_checked st_selected st_raw]; try assumption.
      intros y Y. injection Y as <-. split; [exact T|]. destruct (st_selected s) as [p|] eqn:SE.
      + exists p. split; [reflexivity|]. exists l. split; [|eapply nth_error_In; eauto]. unfold plain_sqls in *. cbn [st_selected]. rewrite SE in P. exact P.
      + unfold plain_sqls in P. rewrite SE in P. injection P as <-. destruct k; discriminate N.
  Qed.
  Lemma reacts_true : forall v es s s', kept_true v s -> reacts v s es = Ok s' -> kept_true v s'.
  Proof using KEYS SRT SRTN DIST.
    intros v. induction es as [|e es IH]; intros s s' K H; cbn [PiPage.reacts] in H; [injection H as <-; exact K|].
    destruct (react v s e) as [s1|m|] eqn:E; cbn [obind] in H; [|discriminate H|discriminate H].
    apply (IH s1 s'); [|exact H]. eapply react_true; eauto.
  Qed.
End Proofs.

(** ** C115 *)
Section C115.
  Context (keys srt : list rank -> list rank) (srtr : list raw_load -> list raw_load) (srtn : list gostring -> list gostring)
    (rows raws : list row) (v : view) (es : list event) (s : pi_state).
  Hypothesis KEYS : forall l, Permutation (keys l) l.
  Hypothesis SRT : is_sort rank_less srt.
  Hypothesis SRTR : is_sort raw_less srtr.
  Hypothesis SRTN : is_sort sltb srtn.
  Hypothesis DIST : Forall distinct_row rows.
  Hypothesis RUN : reacts keys srt srtr srtn rows raws v (mount keys srt srtn rows v) es = Ok s.
  Let KT : kept_true keys srt srtr rows raws v s :=
    reacts_true keys srt srtr srtn rows raws KEYS SRT SRTN DIST v es _ s (mount_true keys srt srtr srtn rows raws SRTN v) RUN.

  (** Whatever the reader did, the checked databases are databases of the rows, each once;
      every bar is a load of a checked database; a timeline shows every such load of half a
      per cent or more, a ranking is one series that shows all SQLs of the checked
      databases or 20. *)
  Theorem pi_chart_follows_checks :
      NoDup (st_checked s) /\ (forall db, In db (st_checked s) -> has_database rows db) /\
      (forall bars p, In bars (st_bars s) -> In (Some p) bars -> bar_for v rows (st_checked s) p) /\
      (timeline v -> forall p, bar_for v rows (st_checked s) p -> exists bars, In bars (st_bars s) /\ In (Some p) bars) /\
      (~ timeline v -> exists bars, st_bars s = [bars] /\ ~ In None bars /\ length bars <= 20 /\
         (length bars = 20 \/ forall db sql, In db (st_checked s) -> occurs_in rows db sql ->
            exists p, In (Some p) bars /\ pk_db p = db /\ pk_sql p = sql)).
  Proof using KEYS SRT SRTN DIST RUN.
    destruct KT as [K1 K2 K3 K4 K5 K6]. split; [exact K3|]. split; [exact K2|]. split; [|split].
    - intros bars p HB HP. rewrite K1 in HB. eapply bars_drawn; eauto.
    - intros T p BP. rewrite K1. destruct T as [T|T]; subst v; cbn [draw]; apply (timeline_bars rows DIST).
      + exact BP.
      + apply bar_timeline. exact BP.
    - intros T. exists (map (fun r => Some (pick_of_rank r)) (ranking keys srt 20 (st_checked s) rows)).
      assert (E : draw keys srt rows v (st_checked s) = [map (fun r => Some (pick_of_rank r)) (ranking keys srt 20 (st_checked s) rows)]).
      { destruct v; [elim T; now left|reflexivity|elim T; now right|reflexivity]. }
      split; [now rewrite K1|]. split; [|split].
      + intros N. apply in_map_iff in N. destruct N as (r & N & _). discriminate N.
      + rewrite map_length. unfold ranking. rewrite firstn_length. lia.
      + rewrite map_length. destruct (Nat.eq_dec (length (ranking keys srt 20 (st_checked s) rows)) 20) as [L|L]; [now left|]. right.
        intros db sql HD HO. destruct (ranking_top keys srt 20 (st_checked s) rows KEYS SRT) as (_ & _ & _ & ALL).
        destruct (ALL db sql HD HO) as [IN|(L' & _)]; [|easy]. apply in_map_iff in IN. destruct IN as (r & E1 & Hr). injection E1 as E1 E2.
        exists (pick_of_rank r). split; [apply in_map_iff; exists r; auto|]. split; assumption.
  Qed.

  (** In all views but the ranking of plain SQLs, a selected bar is a bar of a checked
      database; in the timelines the bar is still in the chart. *)
  Theorem pi_selection_checked : v <> Ranking -> forall p, st_selected s = Some p ->
      bar_for v rows (st_checked s) p /\
      (timeline v -> exists bars, In bars (st_bars s) /\ In (Some p) bars).
  Proof using KEYS SRT SRTN DIST RUN.
    intros V p P. pose proof KT as [K1 K2 K3 K4 K5 K6]. destruct (K4 p P) as (c & B).
    assert (B' : bar_for v rows (st_checked s) p) by (eapply bar_any; eauto). split; [exact B'|].
    intros T. destruct pi_chart_follows_checks as (_ & _ & _ & C & _). now apply C.
  Qed.

  (** The command of a plain view has dots, or names a database and an SQL that loaded it;
      in the timeline the database is checked. *)
  Theorem pi_plain_command : tokenized v = false ->
      command_text v s = dig_command None None \/
      exists db sql, command_text v s = dig_command (Some db) (Some sql) /\ occurs_in rows db sql /\
        (v = Timeline -> In db (st_checked s)).
  Proof using KEYS SRT SRTN DIST RUN.
    intros T. pose proof KT as [K1 K2 K3 K4 K5 K6]. unfold command_text. rewrite T. destruct (st_selected s) as [p|] eqn:P; [|left; reflexivity].
    right. exists (pk_db p), (pk_sql p). split; [reflexivity|]. destruct (K4 p eq_refl) as (c & _ & r & l & Hr & RL & _). split.
    - pose proof RL as (d & _ & _ & _ & Q). exists l. split; [|exact Q]. apply table_row. exists r. rewrite Q. auto.
    - intros V. apply K5; [|reflexivity]. rewrite V. discriminate.
  Qed.

  (** The command of a tokenized view has dots, or names one of the ten heaviest plain SQLs
      with the id of the selected bar, and the database it was heaviest on. *)
  Theorem pi_tok_command : tokenized v = true ->
      command_text v s = dig_command None None \/
      exists p x, st_selected s = Some p /\ bar_for v rows (st_checked s) p /\ plain_of raws (pk_tok p) x /\
        command_text v s = dig_command (Some (rw_db x)) (Some (sl_sql (rw_load x))) /\
        exists every same l, map (fun x => (rw_db x, rw_load x)) every = table_loads raws /\
          exactly (fun x => sl_tok (rw_load x) = pk_tok p) every same /\ largest (fun x => sl_max (rw_load x)) 10 same l /\ In x l.
  Proof using KEYS SRT SRTR SRTN DIST RUN.
    intros T. pose proof KT as [K1 K2 K3 K4 K5 K6]. unfold command_text. rewrite T. destruct (st_raw s) as [x|] eqn:X; [|left; reflexivity].
    right. destruct (K6 x eq_refl) as (_ & p & P & l & L & XL). exists p, x. split; [exact P|].
    assert (V : v <> Ranking) by (intros V; rewrite V in T; discriminate T).
    split; [exact (proj1 (pi_selection_checked V p P))|].
    unfold plain_sqls in L. rewrite P in L. destruct (raw_loads_picked srtr raws 10 (pk_tok p) SRTR) as (_ & _ & R).
    destruct (R l L) as (every & same & E1 & E2 & E3 & E4).
    assert (XS : In x same). { destruct E4 as (_ & _ & rest & PM & _). apply (Permutation_in _ PM). apply in_or_app. now left. }
    destruct (exactly_sub _ _ _ _ E3 x XS) as [XT XE]. rewrite Forall_forall in E2. split; [split; [now apply E2|exact XT]|].
    split; [reflexivity|]. exists every, same, l. auto.
  Qed.

  (** A click on a bar of a tokenized view breaks exactly if no plain SQL has its id; in
      the plain views it selects the bar. *)
  Theorem pi_click_breaks : forall i j bars p, (0 <= i)%Z -> (0 <= j)%Z ->
      nth_error (st_bars s) (Z.to_nat i) = Some bars -> nth_error bars (Z.to_nat j) = Some (Some p) ->
      (react keys srt srtr srtn rows raws v s (Click i j) = Panic <->
         tokenized v = true /\ forall x, ~ plain_of raws (pk_tok p) x) /\
      (forall s', react keys srt srtr srtn rows raws v s (Click i j) = Ok s' ->
         st_selected s' = Some p /\ st_checked s' = st_checked s /\ st_bars s' = st_bars s).
  Proof using SRTR.
    intros i j bars p I J HB HP. cbn [react]. unfold click, at_index. rewrite (proj2 (Z.ltb_ge i 0) I), (proj2 (Z.ltb_ge j 0) J), HB, HP. cbv zeta.
    destruct (raw_loads_picked srtr raws 10 (pk_tok p) SRTR) as (R1 & R2 & _). unfold plain_sqls. cbn [st_selected].
    destruct (tokenized v) eqn:T.
    - split.
      + transitivity (pick_raw_loads srtr (create_raw_loads raws) 10 (pk_tok p) = Panic).
        { destruct (pick_raw_loads srtr (create_raw_loads raws) 10 (pk_tok p)); cbn [obind]; split; intros K; try discriminate K; reflexivity. }
        rewrite R1. split.
        * intros N. split; [reflexivity|]. intros x ((r & d & Hr & Hd & E & Hl & _) & Q). apply (N (rw_db x) (rw_load x)); [|exact Q].
          apply table_row. exists r. split; [exact Hr|]. exists d. auto.
        * intros (_ & N) db l Hl Q. apply table_row in Hl. destruct Hl as (r & Hr & d & Hd & E & Hd2 & _).
          apply (N {| rw_db := db; rw_load := l; rw_date := row_date r |}). split; [|exact Q]. exists r, d. cbn [rw_db rw_load rw_date].
          split; [exact Hr|]. split; [exact Hd|]. split; [now rewrite E|]. split; [exact Hd2|]. apply row_date_milli.
      + intros s' K. destruct (pick_raw_loads srtr (create_raw_loads raws) 10 (pk_tok p)); cbn [obind] in K; [|discriminate K|discriminate K].
        injection K as <-. cbn [st_selected st_checked st_bars]. auto.
    - split.
      + split; [intros K; discriminate K|]. intros (K & _). discriminate K.
      + intros s' K. injection K as <-. cbn [st_selected st_checked st_bars]. auto.
  Qed.

  (** The table of plain SQLs is never empty: the row that says so is never shown. *)
  Theorem pi_table_never_empty : forall p l, st_selected s = Some p -> plain_sqls srtr raws s = Ok l -> l <> [].
  Proof using SRTR.
    intros p l P H EL. subst l. unfold plain_sqls in H. rewrite P in H. destruct (raw_loads_picked srtr raws 10 (pk_tok p) SRTR) as (R1 & _ & R).
    destruct (R [] H) as (every & same & E1 & _ & E3 & E4). destruct E4 as (LEN & _). cbn [length] in LEN.
    assert (SE : same = []) by (destruct same; [reflexivity|cbn [length] in LEN; lia]). subst same.
    assert (K : pick_raw_loads srtr (create_raw_loads raws) 10 (pk_tok p) = Panic); [|congruence].
    apply R1. intros db l Hl Q. rewrite <- E1 in Hl. apply in_map_iff in Hl. destruct Hl as (x & E & Hx). injection E as _ E. subst l.
    revert Hx Q. clear - E3. remember [] as none eqn:N. induction E3 as [|y l m Hy E3 IH|y l m Hy E3 IH]; intros Hx Q; [easy|discriminate N|].
    destruct Hx as [->|Hx]; [easy|]. now apply IH.
  Qed.

  (** Checking or unchecking one of several databases changes that check and no other;
      with one database there is nothing to check. *)
  Theorem pi_toggle : forall db s', react keys srt srtr srtn rows raws v s (Toggle db) = Ok s' ->
      ((exists db', db' <> db /\ has_database rows db') -> has_database rows db ->
         (In db (st_checked s') <-> ~ In db (st_checked s)) /\
         forall db', db' <> db -> (In db' (st_checked s') <-> In db' (st_checked s))) /\
      ((forall d d', has_database rows d -> has_database rows d' -> d = d') -> s' = s).
  Proof using SRTN.
    intros db s' H. cbn [react] in H. injection H as <-. unfold toggle. cbv zeta.
    pose proof (databases_names srtn rows SRTN) as DN. destruct (databases_listed srtn rows SRTN) as (_ & SS & _).
    set (all := all_databases srtn (Some rows)) in *. split.
    - intros (db' & N & H') H. apply DN in H, H'.
      assert (L : Nat.ltb 1 (length all) = true).
      { apply Nat.ltb_lt. destruct all as [|a [|b l]]; cbn [length]; [easy| |lia]. destruct H as [<-|[]], H' as [<-|[]]. easy. }
      rewrite L, (proj2 (includes_in _ _) H). cbn [andb st_checked]. split.
      + rewrite flip_in. tauto.
      + intros d D. rewrite flip_in. tauto.
    - intros ONE. assert (L : Nat.ltb 1 (length all) = false).
      { apply Nat.ltb_ge. destruct all as [|a [|b l]]; cbn [length]; [lia|lia|]. exfalso.
        assert (a = b) by (apply ONE; apply DN; cbn [In]; tauto). subst b.
        inversion SS as [|x y S1 HF]; subst. inversion HF as [|x y B _]; subst.
        destruct B as [(x & t & E)|(q & x & y & t & t' & E1 & E2 & LT)].
        - apply (f_equal (@length _)) in E. rewrite app_length in E. cbn [length] in E. lia.
        - rewrite E1 in E2. apply app_inv_head in E2. injection E2 as E2 _. lia. }
      rewrite L. reflexivity.
  Qed.
End C115.

Notation ex_reacts v es := (reacts (fun x => x) (sort_by rank_less) (sort_by raw_less) (sort_by sltb) ex_rows ex_rows v
  (mount (fun x => x) (sort_by rank_less) (sort_by sltb) ex_rows v) es).
Lemma ex_orders : (forall l : list rank, Permutation ((fun x => x) l) l) /\ is_sort rank_less (sort_by rank_less) /\
    is_sort raw_less (sort_by raw_less) /\ is_sort sltb (sort_by sltb) /\ Forall distinct_row ex_rows.
Proof.
  split; [reflexivity|]. split; [apply q_desc_sort|]. split; [apply (q_desc_sort _ (fun x => sl_max (rw_load x)))|].
  split; [exact (proj1 databases_listed_nonvacuous)|]. exact (proj1 (proj2 opening_chart_nonvacuous)).
Qed.
(** The reader clicks a bar of the first database, checks the second and unchecks the
    first: the timeline forgets the bar. *)
Example pi_timeline_ex :
    (exists s, ex_reacts Timeline [Click 0 0; Toggle (lit "b")] = Ok s /\
       st_checked s = [lit "a"; lit "b"] /\ st_selected s = Some {| pk_db := lit "a"; pk_sql := lit "SELECT 1"; pk_tok := lit "t1" |} /\
       length (st_bars s) = 4 /\ command_text Timeline s = dig_command (Some (lit "a")) (Some (lit "SELECT 1"))) /\
    (exists s, ex_reacts Timeline [Click 0 0; Toggle (lit "b"); Toggle (lit "a")] = Ok s /\
       st_checked s = [lit "b"] /\ command_text Timeline s = dig_command None None).
Proof.
  split; eexists; (split; [vm_compute; reflexivity|]).
  - split; [vm_compute; reflexivity|]. split; [vm_compute; reflexivity|]. split; vm_compute; reflexivity.
  - split; vm_compute; reflexivity.
Qed.
(** In the tokenized timeline they choose a plain SQL. *)
Example pi_tok_ex :
    exists s, ex_reacts TokTimeline [Toggle (lit "b"); Click 1 0; Choose 1] = Ok s /\
       st_checked s = [lit "a"; lit "b"] /\ command_text TokTimeline s = dig_command (Some (lit "a")) (Some (lit "SELECT 1")).
Proof. eexists. split; [vm_compute; reflexivity|]. split; vm_compute; reflexivity. Qed.

(** The ranking of plain SQLs keeps a bar when its database is unchecked (finding): its
    command names a database that is not checked and has no bar. *)
Theorem ranking_command_checked_refuted :
  ~ (forall keys srt srtr srtn rows raws es s, (forall l, Permutation (keys l) l) -> is_sort rank_less srt -> is_sort raw_less srtr ->
       is_sort sltb srtn -> Forall distinct_row rows ->
       reacts keys srt srtr srtn rows raws Ranking (mount keys srt srtn rows Ranking) es = Ok s ->
       command_text Ranking s = dig_command None None \/
       exists db sql, command_text Ranking s = dig_command (Some db) (Some sql) /\ In db (st_checked s)).
Proof.
  intros H. destruct ex_orders as (O1 & O2 & O3 & O4 & O5).
  destruct (ex_reacts Ranking [Click 0 0; Toggle (lit "b"); Toggle (lit "a")]) as [s|m|] eqn:E; [|vm_compute in E; discriminate E|vm_compute in E; discriminate E].
  destruct (H _ _ _ _ _ _ _ _ O1 O2 O3 O4 O5 E) as [K|(db & sql & K & HD)]; vm_compute in E; injection E as <-.
  - vm_compute in K. discriminate K.
  - vm_compute in HD. destruct HD as [<-|[]]. unfold command_text in K. cbn [tokenized st_selected option_map pk_db pk_sql] in K.
    vm_compute in K. discriminate K.
Qed.
(** The plain SQLs of a tokenized SQL are those of all databases (finding): the command
    can name a database that is not checked. *)
Theorem tok_command_checked_refuted :
  ~ (forall keys srt srtr srtn rows raws v es s, (forall l, Permutation (keys l) l) -> is_sort rank_less srt -> is_sort raw_less srtr ->
       is_sort sltb srtn -> Forall distinct_row rows -> tokenized v = true ->
       reacts keys srt srtr srtn rows raws v (mount keys srt srtn rows v) es = Ok s ->
       command_text v s = dig_command None None \/
       exists db sql, command_text v s = dig_command (Some db) (Some sql) /\ In db (st_checked s)).
Proof.
  intros H. destruct ex_orders as (O1 & O2 & O3 & O4 & O5).
  destruct (ex_reacts TokRanking [Click 0 0; Choose 0]) as [s|m|] eqn:E; [|vm_compute in E; discriminate E|vm_compute in E; discriminate E].
  destruct (H _ _ _ _ _ _ TokRanking _ _ O1 O2 O3 O4 O5 eq_refl E) as [K|(db & sql & K & HD)]; vm_compute in E; injection E as <-.
  - vm_compute in K. discriminate K.
  - vm_compute in HD. destruct HD as [<-|[]]. vm_compute in K. discriminate K.
Qed.
(** A click that breaks, and a click that selects. *)
Example pi_click_breaks_ex :
    let m := mount (fun x => x) (sort_by rank_less) (sort_by sltb) ex_rows TokRanking in
    nth_error (st_bars m) 0 = Some [Some {| pk_db := lit "a"; pk_sql := lit "SELECT 1"; pk_tok := lit "t1" |}] /\
    react (fun x => x) (sort_by rank_less) (sort_by raw_less) (sort_by sltb) ex_rows (skipn 1 ex_rows) TokRanking m (Click 0 0) = Panic /\
    exists s, react (fun x => x) (sort_by rank_less) (sort_by raw_less) (sort_by sltb) ex_rows ex_rows TokRanking m (Click 0 0) = Ok s.
Proof. split; [vm_compute; reflexivity|]. split; [vm_compute; reflexivity|]. eexists. vm_compute. reflexivity. Qed.
(** A table of plain SQLs. *)
Example pi_table_ex : exists s p l, ex_reacts TokRanking [Click 0 0] = Ok s /\ st_selected s = Some p /\
    plain_sqls (sort_by raw_less) ex_rows s = Ok l /\ map rw_db l = [lit "b"; lit "a"].
Proof. eexists. eexists. eexists. split; [vm_compute; reflexivity|]. split; [reflexivity|]. split; vm_compute; reflexivity. Qed.
(** There are two databases to check. *)
Example pi_toggle_ex : has_database ex_rows (lit "a") /\ has_database ex_rows (lit "b") /\ lit "a" <> lit "b".
Proof.
  split; [|split; [|discriminate]]; eexists; eexists; (split; [left; reflexivity|]).
  - split; [right; left; reflexivity|reflexivity].
  - split; [left; reflexivity|reflexivity].
Qed.

(** ** C116 *)
Section C116.
  Context (keys srt : list rank -> list rank) (srtr : list raw_load -> list raw_load) (srtn : list gostring -> list gostring)
    (sqls toks : list row).
  Notation went plain v s := (exists es, reacts keys srt srtr srtn (rows_of_tab sqls toks plain) sqls v
                                (mount keys srt srtn (rows_of_tab sqls toks plain) v) es = Ok s).
  Lemma reacts_snoc : forall rows raws v es s s1 e s2, reacts keys srt srtr srtn rows raws v s es = Ok s1 ->
      react keys srt srtr srtn rows raws v s1 e = Ok s2 -> reacts keys srt srtr srtn rows raws v s (es ++ [e]) = Ok s2.
  Proof using.
    intros rows raws v. induction es as [|x es IH]; intros s s1 e s2 H1 H2; cbn [reacts app] in *.
    - injection H1 as ->. rewrite H2. reflexivity.
    - destruct (react keys srt srtr srtn rows raws v s x) as [s'|m|]; cbn [obind] in *; [|discriminate H1|discriminate H1]. eapply IH; eauto.
  Qed.
  (** Whatever the reader does on the page, each chart of the open tab is as if only its own
      events had happened since the tab was opened, so C115 holds of it.  Opening the other
      tab forgets every selection, and what happens at one chart leaves the other. *)
  Lemma tabs_apart : forall es p,
      page_reacts keys srt srtr srtn sqls toks (open_tab keys srt srtn sqls toks true) es = Ok p ->
      went (tb_plain p) (top_view (tb_plain p)) (tb_top p) /\ went (tb_plain p) (line_view (tb_plain p)) (tb_line p).
  Proof using.
    intros es p H.
    assert (I : forall es p0, went (tb_plain p0) (top_view (tb_plain p0)) (tb_top p0) /\ went (tb_plain p0) (line_view (tb_plain p0)) (tb_line p0) ->
      page_reacts keys srt srtr srtn sqls toks p0 es = Ok p ->
      went (tb_plain p) (top_view (tb_plain p)) (tb_top p) /\ went (tb_plain p) (line_view (tb_plain p)) (tb_line p)).
    { clear es H. induction es as [|e es IH]; intros p0 W H; cbn [page_reacts] in H; [injection H as <-; exact W|].
      destruct (page_react keys srt srtr srtn sqls toks p0 e) as [p1|m|] eqn:E; cbn [obind] in H; [|discriminate H|discriminate H].
      apply (IH p1); [|exact H]. clear IH H. destruct W as [(e1 & W1) (e2 & W2)]. destruct e as [plain|e|e]; cbn [page_react] in E.
      - injection E as <-. destruct (Bool.eqb plain (tb_plain p0)); [split; eauto|]. split; exists []; reflexivity.
      - destruct (react keys srt srtr srtn (rows_of_tab sqls toks (tb_plain p0)) sqls (top_view (tb_plain p0)) (tb_top p0) e) as [s|m|] eqn:R; cbn [obind] in E; [|discriminate E|discriminate E].
        injection E as <-. cbn [tb_plain tb_top tb_line]. split; [|eauto]. eexists. eapply reacts_snoc; eauto.
      - destruct (react keys srt srtr srtn (rows_of_tab sqls toks (tb_plain p0)) sqls (line_view (tb_plain p0)) (tb_line p0) e) as [s|m|] eqn:R; cbn [obind] in E; [|discriminate E|discriminate E].
        injection E as <-. cbn [tb_plain tb_top tb_line]. split; [eauto|]. eexists. eapply reacts_snoc; eauto. }
    apply (I es (open_tab keys srt srtn sqls toks true)); [|exact H]. split; exists []; reflexivity.
  Qed.
  (** the tab of the SQLs works on the SQLs, the other one on the tokenized ones *)
  Theorem pi_tabs_apart : forall es p,
      page_reacts keys srt srtr srtn sqls toks (open_tab keys srt srtn sqls toks true) es = Ok p ->
      let rows := if tb_plain p then sqls else toks in
      let top := if tb_plain p then Ranking else TokRanking in
      let line := if tb_plain p then Timeline else TokTimeline in
      (exists es1, reacts keys srt srtr srtn rows sqls top (mount keys srt srtn rows top) es1 = Ok (tb_top p)) /\
      (exists es2, reacts keys srt srtr srtn rows sqls line (mount keys srt srtn rows line) es2 = Ok (tb_line p)).
  Proof using. intros es p H. exact (tabs_apart es p H). Qed.
  Theorem pi_tabs_forget : forall p p',
      (page_react keys srt srtr srtn sqls toks p (OpenTab (negb (tb_plain p))) = Ok p' ->
         tb_plain p' <> tb_plain p /\ commands_shown p' = (dig_command None None, dig_command None None)) /\
      (page_react keys srt srtr srtn sqls toks p (OpenTab (tb_plain p)) = Ok p' -> p' = p) /\
      (forall e, page_react keys srt srtr srtn sqls toks p (AtTop e) = Ok p' ->
         tb_plain p' = tb_plain p /\ snd (commands_shown p') = snd (commands_shown p)) /\
      (forall e, page_react keys srt srtr srtn sqls toks p (AtLine e) = Ok p' ->
         tb_plain p' = tb_plain p /\ fst (commands_shown p') = fst (commands_shown p)).
  Proof using.
    intros p p'. split; [|split; [|split]].
    - intros H. cbn [page_react] in H. injection H as <-. destruct p as [[] top line]; cbn [tb_plain negb Bool.eqb open_tab]; (split; [discriminate|reflexivity]).
    - intros H. cbn [page_react] in H. injection H as <-. rewrite Bool.eqb_reflx. reflexivity.
    - intros e H. cbn [page_react] in H. destruct (react keys srt srtr srtn (rows_of_tab sqls toks (tb_plain p)) sqls (top_view (tb_plain p)) (tb_top p) e); cbn [obind] in H; [|discriminate H|discriminate H].
      injection H as <-. split; reflexivity.
    - intros e H. cbn [page_react] in H. destruct (react keys srt srtr srtn (rows_of_tab sqls toks (tb_plain p)) sqls (line_view (tb_plain p)) (tb_line p) e); cbn [obind] in H; [|discriminate H|discriminate H].
      injection H as <-. split; reflexivity.
  Qed.
End C116.
Example pi_tabs_ex :
    exists p, page_reacts (fun x => x) (sort_by rank_less) (sort_by raw_less) (sort_by sltb) ex_rows ex_rows
      (open_tab (fun x => x) (sort_by rank_less) (sort_by sltb) ex_rows ex_rows true)
      [AtTop (Click 0 0); OpenTab false; AtLine (Click 0 0); AtTop (Toggle (lit "b")); AtLine (Choose 1)] = Ok p /\
    commands_shown p = (dig_command None None, dig_command (Some (lit "a")) (Some (lit "SELECT 1"))).
Proof. eexists. split; [vm_compute; reflexivity|]. vm_compute. reflexivity. Qed.

Print Assumptions pi_chart_follows_checks.
Print Assumptions pi_selection_checked.
Print Assumptions pi_plain_command.
Print Assumptions pi_tok_command.
Print Assumptions pi_click_breaks.
Print Assumptions pi_table_never_empty.
Print Assumptions pi_toggle.
Print Assumptions ranking_command_checked_refuted.
Print Assumptions tok_command_checked_refuted.
Print Assumptions pi_tabs_apart.
Print Assumptions pi_tabs_forget.
