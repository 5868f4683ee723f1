(** Model of the chart of a plan: client/src/components/ExplainTree/ExplainTreeChart.ts
    and the tooltips and labels client/src/lib/GrChart.ts takes from it. *)
From Coq Require Import String List NArith ZArith QArith Bool Lia Arith.
From Verif Require Import Base ExplainTree PlanView.
Import ListNotations.
Local Open Scope nat_scope.

(** ExplainTreeChart.ts:91-96 with GrChart.ts:63-64: the chart has one series; a point
    that is not there is undefined, whose prop is a TypeError. *)
Definition point {D} (bars : list (bar D)) (i : nat) : outcome (bar D) :=
  match nth_error bars i with Some b => Ok b | None => Panic end.
(** ExplainTreeChart.ts:115-126 dataLabelsFormatter *)
Definition data_label (bars : list (bar (nat * vm_node))) (i : nat) : outcome gostring :=
  do b <- point bars i; Ok (vn_title (snd (b_data b))).
(** GrChart.ts:56-65 tooltipCustom; [create_tooltip] is the page's createTooltip
    (ExplainAnalyzeChart.svelte:32-75, 33-71 and ExplainChart.svelte:33-61), which reads
    prop.IAnalyzeData only. *)
Definition hover_bar (create_tooltip : vm_node -> gostring) (bars : list (bar (nat * vm_node))) (i : nat) : outcome gostring :=
  do b <- point bars i; Ok (create_tooltip (snd (b_data b))).
(** GrChart.ts:89-103 dataPointMouseEnter with ExplainAnalyzeChart.svelte:19-23: the index
    of the text put in bold *)
Definition mouse_enter {D} (bars : list (bar D)) (i : nat) : outcome nat :=
  do b <- point bars i; Ok (b_num b).
(** ExplainTreeChart.ts:69, 101-107 calculateChartHeightPx, without the unit *)
Definition chart_height {D} (bars : list (bar D)) : nat :=
  length (nodup Nat.eq_dec (map b_num bars)) * 30 + 130.
