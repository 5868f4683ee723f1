(** The page of the Jaeger dig command.  The texts of numbers (Intl.NumberFormat) and the
    rendering of Mermaid are not modelled. *)
From Coq Require Import String List NArith ZArith Bool.
From Verif Require Import Base Otel TraceDiagram HandOver.
Import ListNotations.

(** client/src/pages/dig/jaeger/TracesTable.svelte:38-69 and TraceDiagram.svelte:8-9, 22;
    a URL that cannot be built stops the rendering *)
Record shown_row := {
  sr_id : gostring; sr_millis : Z; sr_count : Z; sr_service : gostring; sr_link : gostring; sr_diagram : gostring }.
(** TracesTable.svelte:38-69 *)
Fixpoint shown_rows (ui : gostring) (l : list trace_tree) : outcome (list shown_row) :=
  match l with
  | [] => Ok []
  | t :: l' =>
      match trace_link ui (tt_id t) with
      | None => Panic
      | Some u =>
          do r <- shown_rows ui l';
          Ok ({| sr_id := tt_id t; sr_millis := tt_duration t; sr_count := tt_count t; sr_service := tt_service t;
                 sr_link := u; sr_diagram := to_mermaid (tt_root t) |} :: r)
      end
  end.
(** DigJaegerPage.svelte:14-38: the table of slow traces with its threshold, and that of
    same service traces with both thresholds *)
Record jaeger_tables := {
  jt_slow_ms : Z; jt_slow : list shown_row; jt_same : Z * Z; jt_same_rows : list shown_row }.
(** DigJaegerPage.svelte:14-38 *)
Definition jaeger_page (srt srt' : list trace_tree -> list trace_tree) (d : jaeger_data) : outcome jaeger_tables :=
  do a <- shown_rows (jd_ui d) (traces_table srt (jd_slow d));
  do b <- shown_rows (jd_ui d) (traces_table srt' (jd_same_service d));
  Ok {| jt_slow_ms := jd_slow_ms d; jt_slow := a; jt_same := (jd_same d, jd_slow_ms d); jt_same_rows := b |}.
