(** The charts that the Performance Insights page makes as the reader uses it: PiPage.v with
    ChartLife.v.

    Simplifications: a tab that is left is closed before the components of the other one are
    made; those are numbered in the order of the page. *)
From Coq Require Import String List NArith ZArith QArith Bool Arith.
From Verif Require Import Base Pi LoadCharts PiPage ChartLife.
Import ListNotations.
Local Open Scope nat_scope.
Local Open Scope list_scope.

(** HeaviestSqlRanking.svelte:23, HeaviestTokenizedSqlRanking.svelte:26 *)
Definition top_kind (plain : bool) : kind := if plain then KTop else KTokTop.
(** HeavySqlTimeline.svelte:23, HeavyTokenizedSqlTimeline.svelte:27 *)
Definition line_kind (plain : bool) : kind := if plain then KLine else KTokLine.
(** what the charts are drawn from: PiPage.v *)
Definition bars : Type := list (list (option pick)).

Section Page.
  Context (keys srt : list rank -> list rank) (srtr : list raw_load -> list raw_load) (srtn : list gostring -> list gostring)
    (sqls toks : list row).
  (** the components of a tab: DigPerformanceInsightsPage.svelte:20-51, onMount of each *)
  Definition opening (p : pi_tabs) : list (@happening bars) :=
    [Open (top_kind (tb_plain p)) (st_bars (tb_top p)) [] []; Open (line_kind (tb_plain p)) (st_bars (tb_line p)) [] []].
  (** a checkbox, if it is shown, draws the chart again: HeavySqlTimeline.svelte:37-42,48-58 and its siblings *)
  Definition redrawing (rows : list row) (e : event) (i : nat) (s : pi_state) : list (@happening bars) :=
    match e with
    | Toggle db =>
        let all := all_databases srtn (Some rows) in
        if Nat.ltb 1 (length all) && includes all db then [Redraw i (st_bars s)] else []
    | _ => []
    end.
  (** The page goes from [p] to [p'], with [k] tabs left before: DigPerformanceInsightsPage.svelte:10-53 *)
  Definition charts_of (k : nat) (p p' : pi_tabs) (e : page_event) : nat * list (@happening bars) :=
    match e with
    | OpenTab plain =>
        if Bool.eqb plain (tb_plain p) then (k, [])
        else (S k, [Close (2 * k); Close (2 * k + 1)] ++ opening p')
    | AtTop e => (k, redrawing (rows_of_tab sqls toks (tb_plain p)) e (2 * k) (tb_top p'))
    | AtLine e => (k, redrawing (rows_of_tab sqls toks (tb_plain p)) e (2 * k + 1) (tb_line p'))
    end.
  (** the events one after the other; no lines in /repo of its own *)
  Fixpoint page_life (k : nat) (p : pi_tabs) (es : list page_event) : outcome (pi_tabs * list (@happening bars)) :=
    match es with
    | [] => Ok (p, [])
    | e :: es' =>
        do p' <- page_react keys srt srtr srtn sqls toks p e;
        let '(k', hs) := charts_of k p p' e in
        do r <- page_life k' p' es'; Ok (fst r, hs ++ snd r)
    end.
  (** the whole: DigPerformanceInsightsPage.svelte:10-53 *)
  Definition page_whole (es : list page_event) : outcome (pi_tabs * @world bars) :=
    let p := open_tab keys srt srtn sqls toks true in
    do r <- page_life 0 p es;
    do w <- happens start (opening p ++ snd r);
    Ok (fst r, w).
End Page.
