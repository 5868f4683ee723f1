(** The Performance Insights page as it reacts to the reader: clicks on bars, the
    checkboxes of the databases, the choice of a plain SQL and the tabs.

    Simplifications: the list bound to the checkboxes is up to date when their change
    handler runs; ApexCharts reports the indexes of the bar clicked, or a negative
    series beside the bars; an exception leaves no state ([Panic]). *)
From Coq Require Import String List NArith ZArith QArith Bool Lia Arith.
From Verif Require Import Base Pi LoadCharts DigCommand.
Import ListNotations.
Local Open Scope nat_scope.

(** HeavySqlTimeline, HeaviestSqlRanking, HeavyTokenizedSqlTimeline and
    HeaviestTokenizedSqlRanking (.svelte) *)
(** DigPerformanceInsightsPage.svelte:20-51 *)
Inductive view := Timeline | Ranking | TokTimeline | TokRanking.
(** HeavyTokenizedSqlTimeline.svelte:1-15, HeaviestTokenizedSqlRanking.svelte:1-15: the two of them that show tokenized SQLs *)
Definition tokenized (v : view) : bool := match v with TokTimeline | TokRanking => true | _ => false end.

(** What a bar carries: the members of its prop that the components use *)
(** HeavySqlTimeline.svelte:33-44 *)
Record pick := { pk_db : gostring; pk_sql : gostring; pk_tok : gostring }.
(** lib/GrChart.ts:75-87 for a timeline *)
Definition pick_of_prop (p : point_prop) : pick := {| pk_db := pr_db p; pk_sql := pr_sql p; pk_tok := pr_tok p |}.
(** lib/GrChart.ts:75-87 for a ranking *)
Definition pick_of_rank (r : rank) : pick := {| pk_db := rk_db r; pk_sql := rk_sql r; pk_tok := rk_tok r |}.

Section Page.
  (** Orders of Object.keys and of the three sorts; the rows drawn and the rows of plain
      SQLs *)
  Context (keys srt : list rank -> list rank) (srtr : list raw_load -> list raw_load) (srtn : list gostring -> list gostring)
    (rows raws : list row).

  (** render and changeDatabase of the four charts (0.005 and 20: the components'
      onMount): the series given to ApexCharts *)
  Definition draw (v : view) (databases : list gostring) : list (list (option pick)) :=
    match v with
    | Timeline | TokTimeline =>
        map (fun s => map (fun p => option_map pick_of_prop (p_prop p)) (se_data s)) (load_series databases (5 # 1000) rows)
    | Ranking | TokRanking => [map (fun r => Some (pick_of_rank r)) (ranking keys srt 20 databases rows)]
    end.

  (** The variables checked, selectedProp and selectedRawLoadOfSql, and what the chart
      shows *)
  (** HeavySqlTimeline.svelte:14-18, HeavyTokenizedSqlTimeline.svelte:16-22 *)
  Record pi_state := { st_checked : list gostring; st_bars : list (list (option pick)); st_selected : option pick; st_raw : option raw_load }.

  (** onMount: HeavySqlTimeline.svelte:20-27, HeaviestSqlRanking.svelte:20-27,
      HeavyTokenizedSqlTimeline.svelte:24-36, HeaviestTokenizedSqlRanking.svelte:23-36 *)
  Definition mount (v : view) : pi_state :=
    let checked := first_database (all_databases srtn (Some rows)) in
    {| st_checked := checked; st_bars := draw v checked; st_selected := None; st_raw := None |}.

  (** HeavyTokenizedSqlTimeline.svelte:81-82, HeaviestTokenizedSqlRanking.svelte:81-82 *)
  Definition plain_sqls (s : pi_state) : outcome (list raw_load) :=
    match st_selected s with
    | None => Ok []
    | Some p => pick_raw_loads srtr (create_raw_loads raws) 10 (pk_tok p)
    end.

  (** series[i] of JavaScript *)
  (** JavaScript; lib/GrChart.ts:80-83 *)
  Definition at_index {A} (l : list A) (i : Z) : option A := if Z.ltb i 0 then None else nth_error l (Z.to_nat i).
  (** lib/GrChart.ts:75-87 eventsClick and onBarClick (HeavySqlTimeline.svelte:33-35,
      HeaviestSqlRanking.svelte:33-35, HeavyTokenizedSqlTimeline.svelte:42-45,
      HeaviestTokenizedSqlRanking.svelte:42-45); the tokenized components then show the
      plain SQLs *)
  Definition click (v : view) (s : pi_state) (i j : Z) : outcome pi_state :=
    if Z.ltb i 0 then Ok s
    else match at_index (st_bars s) i with
         | None => Panic
         | Some bars =>
             match at_index bars j with
             | None => Panic
             | Some p =>
                 let s' := {| st_checked := st_checked s; st_bars := st_bars s; st_selected := p;
                              st_raw := if tokenized v then None else st_raw s |} in
                 if tokenized v then do _ <- plain_sqls s'; Ok s' else Ok s'
             end
         end.

  (** bind:group of the checkboxes: a name is added at the end or taken out *)
  (** Svelte; the checkboxes of the four components, e.g. HeavySqlTimeline.svelte:48-62 *)
  Definition flip (checked : list gostring) (db : gostring) : list gostring :=
    if includes checked db then filter (fun d => negb (seqb d db)) checked else checked ++ [db].
  (** onDatabaseChanged: HeavySqlTimeline.svelte:37-42, HeavyTokenizedSqlTimeline.svelte:47-53,
      HeaviestTokenizedSqlRanking.svelte:47-53; HeaviestSqlRanking.svelte:37-39 keeps what
      is selected.  The checkboxes are shown for two databases or more. *)
  Definition toggle (v : view) (s : pi_state) (db : gostring) : pi_state :=
    let all := all_databases srtn (Some rows) in
    if Nat.ltb 1 (length all) && includes all db then
      let checked := flip (st_checked s) db in
      let kept := match v with
                  | Ranking => true
                  | _ => match st_selected s with Some p => includes checked (pk_db p) | None => false end
                  end in
      {| st_checked := checked; st_bars := draw v checked;
         st_selected := if kept then st_selected s else None; st_raw := if kept then st_raw s else None |}
    else s.

  (** bind:group of the radios: HeavyTokenizedSqlTimeline.svelte:97-101,
      HeaviestTokenizedSqlRanking.svelte:96-100 *)
  Definition choose (v : view) (s : pi_state) (k : nat) : outcome pi_state :=
    if tokenized v then
      do l <- plain_sqls s;
      match nth_error l k with
      | None => Ok s
      | Some x => Ok {| st_checked := st_checked s; st_bars := st_bars s; st_selected := st_selected s; st_raw := Some x |}
      end
    else Ok s.

  (** what the reader does; no lines in /repo of its own *)
  Inductive event := Click (i j : Z) | Toggle (db : gostring) | Choose (k : nat).
  (** a handler for each event; no lines in /repo of its own *)
  Definition react (v : view) (s : pi_state) (e : event) : outcome pi_state :=
    match e with
    | Click i j => click v s i j
    | Toggle db => Ok (toggle v s db)
    | Choose k => choose v s k
    end.
  (** a handler for each event; no lines in /repo of its own *)
  Fixpoint reacts (v : view) (s : pi_state) (es : list event) : outcome pi_state :=
    match es with
    | [] => Ok s
    | e :: es' => do s' <- react v s e; reacts v s' es'
    end.

  (** commandText: HeavySqlTimeline.svelte:44, HeaviestSqlRanking.svelte:41,
      HeavyTokenizedSqlTimeline.svelte:55-58, HeaviestTokenizedSqlRanking.svelte:55-58 *)
  Definition command_text (v : view) (s : pi_state) : gostring :=
    if tokenized v then dig_command (option_map rw_db (st_raw s)) (option_map (fun x => sl_sql (rw_load x)) (st_raw s))
    else dig_command (option_map pk_db (st_selected s)) (option_map pk_sql (st_selected s)).
End Page.

(** DigPerformanceInsightsPage.svelte:10-53: two components of the open tab; opening the
    other tab mounts its components anew *)
Section Tabs.
  Context (keys srt : list rank -> list rank) (srtr : list raw_load -> list raw_load) (srtn : list gostring -> list gostring)
    (sqls toks : list row).
  (** DigPerformanceInsightsPage.svelte:10-53 *)
  Record pi_tabs := { tb_plain : bool; tb_top : pi_state; tb_line : pi_state }.
  (** DigPerformanceInsightsPage.svelte:20-51 *)
  Definition top_view (plain : bool) : view := if plain then Ranking else TokRanking.
  (** DigPerformanceInsightsPage.svelte:20-51 *)
  Definition line_view (plain : bool) : view := if plain then Timeline else TokTimeline.
  (** DigPerformanceInsightsPage.svelte:20-51 *)
  Definition rows_of_tab (plain : bool) : list row := if plain then sqls else toks.
  (** DigPerformanceInsightsPage.svelte:20-51 *)
  Definition open_tab (plain : bool) : pi_tabs :=
    {| tb_plain := plain; tb_top := mount keys srt srtn (rows_of_tab plain) (top_view plain);
       tb_line := mount keys srt srtn (rows_of_tab plain) (line_view plain) |}.
  (** DigPerformanceInsightsPage.svelte:10-53 *)
  Inductive page_event := OpenTab (plain : bool) | AtTop (e : event) | AtLine (e : event).
  (** DigPerformanceInsightsPage.svelte:10-53 *)
  Definition page_react (p : pi_tabs) (e : page_event) : outcome pi_tabs :=
    match e with
    | OpenTab plain => Ok (if Bool.eqb plain (tb_plain p) then p else open_tab plain)
    | AtTop e =>
        do s <- react keys srt srtr srtn (rows_of_tab (tb_plain p)) sqls (top_view (tb_plain p)) (tb_top p) e;
        Ok {| tb_plain := tb_plain p; tb_top := s; tb_line := tb_line p |}
    | AtLine e =>
        do s <- react keys srt srtr srtn (rows_of_tab (tb_plain p)) sqls (line_view (tb_plain p)) (tb_line p) e;
        Ok {| tb_plain := tb_plain p; tb_top := tb_top p; tb_line := s |}
    end.
  (** DigPerformanceInsightsPage.svelte:10-53 *)
  Fixpoint page_reacts (p : pi_tabs) (es : list page_event) : outcome pi_tabs :=
    match es with
    | [] => Ok p
    | e :: es' => do p' <- page_react p e; page_reacts p' es'
    end.
  (** The two commands shown *)
  (** DigPerformanceInsightsPage.svelte:20-51 *)
  Definition commands_shown (p : pi_tabs) : gostring * gostring :=
    (command_text (top_view (tb_plain p)) (tb_top p), command_text (line_view (tb_plain p)) (tb_line p)).
End Tabs.
