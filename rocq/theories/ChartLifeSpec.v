(** What is expected of the charts of the components, from what happened to them. *)
From Coq Require Import String List NArith ZArith Bool.
From Verif Require Import Base ChartLife.
Import ListNotations.
Local Open Scope nat_scope.
Local Open Scope list_scope.

Section Spec.
  Context {B : Type}.
  (** a component: its class, the bars drawn last, the height and
      the title that a plan was opened with, how often it was drawn, whether it is open *)
  Record shown := { sh_kind : kind; sh_bars : B; sh_height : gostring; sh_title : gostring; sh_drawn : nat; sh_open : bool }.
  Definition drawn_again (b : B) (s : shown) : shown :=
    match sh_kind s, sh_open s with
    | KPlan, _ | _, false => s
    | k, true => {| sh_kind := k; sh_bars := b; sh_height := sh_height s; sh_title := sh_title s; sh_drawn := S (sh_drawn s); sh_open := true |}
    end.
  Definition closed (s : shown) : shown := {| sh_kind := sh_kind s; sh_bars := sh_bars s; sh_height := sh_height s; sh_title := sh_title s; sh_drawn := sh_drawn s; sh_open := false |}.
  (** [after es l]: the components, in the order in which they were opened *)
  Inductive after : list (@happening B) -> list shown -> Prop :=
  | af_nil : after [] []
  | af_open : forall es l k b h t, after es l -> after (es ++ [Open k b h t]) (l ++ [{| sh_kind := k; sh_bars := b; sh_height := h; sh_title := t; sh_drawn := 1; sh_open := true |}])
  | af_redraw : forall es a s z b, after es (a ++ s :: z) -> after (es ++ [Redraw (length a) b]) (a ++ drawn_again b s :: z)
  | af_close : forall es a s z, after es (a ++ s :: z) -> after (es ++ [Close (length a)]) (a ++ closed s :: z)
  | af_redraw_none : forall es l i b, after es l -> length l <= i -> after (es ++ [Redraw i b]) l
  | af_close_none : forall es l i, after es l -> length l <= i -> after (es ++ [Close i]) l.
  (** the member of an object, and what is found along a path of members *)
  Definition member_is (c : list (gostring * @js B)) (key : gostring) (x : js) : Prop :=
    exists a z, c = a ++ (key, x) :: z /\ ~ In key (map fst a).
  Inductive at_path (h : list (list (gostring * @js B))) : js -> list string -> js -> Prop :=
  | ap_here : forall v, at_path h v [] v
  | ap_member : forall o c key x p v, nth_error h o = Some c -> member_is c (of_string key) x -> at_path h x p v -> at_path h (JRef o) (key :: p) v.
  (** the options of a chart of component [i] that shows [b]: all functions are those of the
      component's own GrChart; a plan has the height and the title given;
      loads in time are stacked bars over dates, rankings are bars of their own without legend *)
  Definition options_of (h : list (list (gostring * @js B))) (k : kind) (i : nat) (b : B) (height title : gostring) (v : js) : Prop :=
    at_path h v ["series"%string] (JBars b) /\
    at_path h v ["tooltip"; "custom"]%string (JFn i (of_string "tooltipCustom")) /\
    at_path h v ["legend"; "formatter"]%string (JFn i (of_string "legendFormatter")) /\
    at_path h v ["chart"; "events"; "click"]%string (JFn i (of_string "eventsClick")) /\
    at_path h v ["chart"; "events"; "dataPointMouseEnter"]%string (JFn i (of_string "dataPointMouseEnter")) /\
    match k with
    | KPlan =>
        at_path h v ["dataLabels"; "formatter"]%string (JFn i (of_string "dataLabelsFormatter")) /\
        at_path h v ["chart"; "height"]%string (JLit height) /\ at_path h v ["title"; "text"]%string (JLit title) /\
        at_path h v ["chart"; "type"]%string (JLit (of_string "rangeBar"))
    | _ =>
        at_path h v ["yaxis"; "labels"; "formatter"]%string (JFn i (of_string "yaxisLabelsFormatter")) /\
        at_path h v ["chart"; "type"]%string (JLit (of_string "bar")) /\
        match k with
        | KLine | KTokLine => at_path h v ["chart"; "stacked"]%string (JLit (of_string "true")) /\ at_path h v ["xaxis"; "type"]%string (JLit (of_string "datetime"))
        | _ => at_path h v ["plotOptions"; "bar"; "distributed"]%string (JLit (of_string "true")) /\ at_path h v ["legend"; "show"]%string (JLit (of_string "false"))
        end
    end.
  (** the value is an object like [t] *)
  Inductive looks (h : list (list (gostring * @js B))) : js -> opt -> Prop :=
  | lk_lit : forall t, looks h (JLit t) (OLit t)
  | lk_obj : forall o c l, nth_error h o = Some c -> Forall2 (fun x y => fst x = fst y /\ looks h (snd x) (snd y)) c l -> looks h (JRef o) (OObj l).
End Spec.
