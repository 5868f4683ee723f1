(** The charts of the pages as objects: lib/GrChart.ts and its five subclasses, which make
    a new chart of ApexCharts for each drawing, and the components that open and close them.

    Objects of JavaScript are cells of a heap.  A chart of ApexCharts is what it was made
    with and how often its destroy was called; what ApexCharts does is not modelled.
    Bars are any type [B]: LoadCharts.v and PlanView.v have them. *)
From Coq Require Import String List NArith ZArith Bool.
From Verif Require Import Base.
Import ListNotations.
Local Open Scope nat_scope.
Local Open Scope list_scope.

(** JSON values as JSON.parse makes them; an array has its indexes as members.
    JavaScript; no lines in /repo *)
Inductive opt := OLit (t : gostring) | OObj (l : list (gostring * opt)).

(** The classes of charts: DbLoadChart.ts:56, DbTokenizedLoadChart.ts:63, DbLoadRankingChart.ts:53,
    DbTokenizedLoadRankingChart.ts:63, ExplainTreeChart.ts:80 *)
Inductive kind := KLine | KTokLine | KTop | KTokTop | KPlan.
(** the same *)
Definition is_plan (k : kind) : bool := match k with KPlan => true | _ => false end.

(** a member with a text; no lines in /repo of its own *)
Definition ot (k v : string) : gostring * opt := (lit k, OLit (lit v)).
(** a member with an object; no lines in /repo of its own *)
Definition oo (k : string) (l : list (gostring * opt)) : gostring * opt := (lit k, OObj l).
(** DbLoadChart.ts:8-45, DbTokenizedLoadChart.ts:10-47 *)
Definition line_option : opt := OObj
  [oo "series" []; oo "chart" [ot "type" "bar"; ot "stacked" "true"; oo "zoom" [ot "enabled" "true"]; oo "animations" [ot "enabled" "false"]; oo "events" []; ot "height" "350"; ot "width" "3000"];
   oo "tooltip" [ot "enabled" "true"]; oo "dataLabels" [ot "enabled" "false"]; oo "xaxis" [ot "type" "datetime"; ot "tickPlacement" "on"];
   oo "yaxis" [oo "labels" [ot "show" "true"]; oo "title" [ot "text" "Load of database (%)"; oo "style" [ot "fontSize" "15px"]]]; oo "legend" [ot "show" "true"]].
(** DbLoadRankingChart.ts:7-43, DbTokenizedLoadRankingChart.ts:9-45 *)
Definition top_option : opt := OObj
  [oo "chart" [ot "height" "350"; ot "type" "bar"]; oo "plotOptions" [oo "bar" [ot "columnWidth" "45%"; ot "distributed" "true"]]; oo "tooltip" [ot "enabled" "true"];
   oo "dataLabels" [ot "enabled" "false"]; oo "legend" [ot "show" "false"]; oo "xaxis" [oo "labels" [ot "show" "false"]];
   oo "yaxis" [oo "labels" [ot "show" "true"]; oo "title" [ot "text" "Total Load of database (%)"; oo "style" [ot "fontSize" "15px"]]]].
(** ExplainTreeChart.ts:11-67 *)
Definition plan_option : opt := OObj
  [oo "series" [oo "0" [oo "data" []]]; oo "dataLabels" [ot "enabled" "true"; ot "textAnchor" "middle"];
   oo "grid" [oo "xaxis" [oo "lines" [ot "show" "true"]]; oo "yaxis" [oo "lines" [ot "show" "false"]]]; oo "chart" [ot "width" "100%"; ot "type" "rangeBar"];
   oo "plotOptions" [oo "bar" [ot "horizontal" "true"; ot "barHeight" "80%"]]; oo "fill" [ot "type" "solid"; ot "opacity" "0.6"];
   oo "xaxis" [ot "type" "numeric"; oo "title" [ot "text" "Execution time (ms)"]];
   oo "yaxis" [ot "show" "true"; oo "labels" [ot "show" "false"]; oo "axisBorder" [ot "show" "false"]; oo "axisTicks" [ot "show" "false"]];
   oo "stroke" [oo "colors" [ot "0" "transparent"]; ot "width" "0"]; oo "tooltip" [ot "enabled" "true"]; oo "legend" [ot "show" "true"]].
(** the five files: DEFAULT_CHART_OPTION *)
Definition default_option (k : kind) : opt :=
  match k with KLine | KTokLine => line_option | KTop | KTokTop => top_option | KPlan => plan_option end.
(** the order in which the modules are loaded; any will do *)
Definition kinds : list kind := [KLine; KTokLine; KTop; KTokTop; KPlan].

Section Life.
  Context {B : Type}.

  (** Values of JavaScript: a primitive, undefined, an object, the member of the GrChart of a
      component that is a function, the series drawn.  JavaScript; no lines in /repo *)
  Inductive js := JLit (t : gostring) | JUndef | JRef (o : nat) | JFn (owner : nat) (name : gostring) | JBars (b : B).
  (** JavaScript; no lines in /repo: the members of an object *)
  Definition obj := list (gostring * js).
  (** JavaScript; no lines in /repo: all objects *)
  Definition heap := list obj.
  (** JavaScript; no lines in /repo: a member, if there is one *)
  Definition find_member (c : obj) (key : gostring) : option js := option_map snd (find (fun e => seqb (fst e) key) c).
  (** JavaScript; no lines in /repo: a member is changed, or added at the end *)
  Fixpoint put_member (c : obj) (key : gostring) (v : js) : obj :=
    match c with
    | [] => [(key, v)]
    | (k, x) :: c' => if seqb k key then (k, v) :: c' else (k, x) :: put_member c' key v
    end.
  (** no lines in /repo of its own *)
  Fixpoint update {A} (l : list A) (i : nat) (f : A -> A) : list A :=
    match l, i with
    | [], _ => []
    | x :: l', 0 => f x :: l'
    | x :: l', S i' => x :: update l' i' f
    end.
  (** v.key; a member of undefined is a TypeError *)
  Definition get (h : heap) (v : js) (key : string) : outcome js :=
    match v with
    | JRef o => match nth_error h o with
                | Some c => Ok (match find_member c (lit key) with Some x => x | None => JUndef end)
                | None => Panic
                end
    | JUndef => Panic
    | _ => Ok JUndef
    end.
  (** v.key = x; modules are strict, so that it is a TypeError for all but objects *)
  Definition put (h : heap) (v : js) (key : string) (x : js) : outcome heap :=
    match v with
    | JRef o => match nth_error h o with Some _ => Ok (update h o (fun c => put_member c (lit key) x)) | None => Panic end
    | _ => Panic
    end.
  (** new objects for a JSON value: the objects from number [b] on, the last one is the value *)
  Fixpoint cells (t : opt) (b : nat) : list obj * js :=
    match t with
    | OLit x => ([], JLit x)
    | OObj l =>
        let '(cs, ms) :=
          (fix go (l : list (gostring * opt)) (b : nat) : list obj * obj :=
             match l with
             | [] => ([], [])
             | (k, x) :: l' =>
                 let '(cs, v) := cells x b in
                 let '(cs', ms) := go l' (length cs + b) in
                 (cs ++ cs', (k, v) :: ms)
             end) l b in
        (cs ++ [ms], JRef (length cs + b))
    end.
  (** JSON.parse as used in DbLoadChart.ts:66 and its siblings *)
  Definition parse (t : opt) (h : heap) : heap * js := let '(cs, v) := cells t (length h) in (h ++ cs, v).
  (** JSON.stringify of an object that is at most [n] deep; functions and undefined are left out *)
  Fixpoint stringify (n : nat) (h : heap) (v : js) : option opt :=
    match v with
    | JLit t => Some (OLit t)
    | JRef o =>
        match n, nth_error h o with
        | S n', Some c =>
            option_map OObj
              ((fix go (c : obj) : option (list (gostring * opt)) :=
                  match c with
                  | [] => Some []
                  | (k, x) :: c' =>
                      match x with
                      | JFn _ _ | JUndef => go c'
                      | _ => match stringify n' h x, go c' with Some t, Some l => Some ((k, t) :: l) | _, _ => None end
                      end
                  end) c)
        | _, _ => None
        end
    | _ => None
    end.

  (** A chart of ApexCharts: its element, its options, how often destroy was called.
      GrChart.ts:31,38 *)
  Record apex := { ax_elm : nat; ax_option : js; ax_destroyed : nat }.
  (** A component with its GrChart and its element; both have the component's number.
      GrChart.ts:21-28; HeavySqlTimeline.svelte:12-16 and its siblings *)
  Record component := { co_kind : kind; co_chart : option nat; co_open : bool }.
  (** the objects, the charts made so far, the components opened so far; no lines in /repo of its own *)
  Record world := { w_heap : heap; w_charts : list apex; w_comps : list component }.

  (** the modules' constants: DbLoadChart.ts:8 and its siblings *)
  Fixpoint load_modules (l : list kind) (h : heap) : heap * list (kind * js) :=
    match l with
    | [] => (h, [])
    | k :: l' => let '(h1, v) := parse (default_option k) h in let '(h2, ds) := load_modules l' h1 in (h2, (k, v) :: ds)
    end.
  (** the same, for the five *)
  Definition loaded : heap * list (kind * js) := load_modules kinds [].
  (** no lines in /repo of its own *)
  Definition kind_eqb (a b : kind) : bool :=
    match a, b with KLine, KLine | KTokLine, KTokLine | KTop, KTop | KTokTop, KTokTop | KPlan, KPlan => true | _, _ => false end.
  (** DEFAULT_CHART_OPTION of the class: DbLoadChart.ts:66 and its siblings *)
  Definition default_ref (k : kind) : js := match find (fun e => kind_eqb (fst e) k) (snd loaded) with Some e => snd e | None => JUndef end.
  (** before the first component; no lines in /repo of its own *)
  Definition start : world := {| w_heap := fst loaded; w_charts := []; w_comps := [] |}.

  (** GrChart.ts:30-32 destroy *)
  Definition destroy (w : world) (i : nat) : world :=
    match nth_error (w_comps w) i with
    | Some {| co_chart := Some c |} =>
        {| w_heap := w_heap w; w_comps := w_comps w;
           w_charts := update (w_charts w) c (fun x => {| ax_elm := ax_elm x; ax_option := ax_option x; ax_destroyed := S (ax_destroyed x) |}) |}
    | _ => w
    end.
  (** assignFunctions: DbLoadChart.ts:76-80, DbTokenizedLoadChart.ts:88-92, DbLoadRankingChart.ts:73-77,
      DbTokenizedLoadRankingChart.ts:86-92, ExplainTreeChart.ts:109-113 *)
  Definition assign_functions (k : kind) (i : nat) (h : heap) (option : js) : outcome heap :=
    match k with
    | KPlan => do d <- get h option "dataLabels"; put h d "formatter" (JFn i (lit "dataLabelsFormatter"))
    | _ =>
        do y <- get h option "yaxis";
        match y with
        | JRef o =>
            match nth_error h o with
            | None => Panic
            | Some c =>
                match find_member c (lit "labels") with
                | None => Ok h
                | Some l => put h l "formatter" (JFn i (lit "yaxisLabelsFormatter"))
                end
            end
        | _ => Panic
        end
    end.
  (** GrChart.ts:42-52 assignOptionFunctions *)
  Definition assign_option_functions (k : kind) (i : nat) (h : heap) (option : js) : outcome heap :=
    do t <- get h option "tooltip";
    do h1 <- put h t "custom" (JFn i (lit "tooltipCustom"));
    do l <- get h1 option "legend";
    do h2 <- put h1 l "formatter" (JFn i (lit "legendFormatter"));
    do c <- get h2 option "chart";
    do h3 <- put (h2 ++ [[(lit "click", JFn i (lit "eventsClick")); (lit "dataPointMouseEnter", JFn i (lit "dataPointMouseEnter"))]]) c "events" (JRef (length h2));
    assign_functions k i h3 option.
  (** GrChart.ts:34-40 renderChart *)
  Definition render_chart (k : kind) (i : nat) (w : world) (option : js) : outcome world :=
    let w1 := destroy w i in
    do h <- assign_option_functions k i (w_heap w1) option;
    Ok {| w_heap := h; w_charts := w_charts w1 ++ [{| ax_elm := i; ax_option := option; ax_destroyed := 0 |}];
          w_comps := update (w_comps w1) i (fun c => {| co_kind := co_kind c; co_chart := Some (length (w_charts w1)); co_open := co_open c |}) |}.
  (** render: DbLoadChart.ts:65-70, DbTokenizedLoadChart.ts:73-78, DbLoadRankingChart.ts:62-67,
      DbTokenizedLoadRankingChart.ts:71-76, ExplainTreeChart.ts:91-99; [height] and [title]
      are for a plan *)
  Definition render (height title : gostring) (k : kind) (i : nat) (bars : B) (w : world) : outcome world :=
    match stringify 8 (w_heap w) (default_ref k) with
    | None => Panic
    | Some t =>
        let '(h, option) := parse t (w_heap w) in
        do h1 <- put h option "series" (JBars bars);
        do h2 <- (if is_plan k
                  then do c <- get h1 option "chart"; do h' <- put h1 c "height" (JLit height); put (h' ++ [[(lit "text", JLit title)]]) option "title" (JRef (length h'))
                  else Ok h1);
        render_chart k i {| w_heap := h2; w_charts := w_charts w; w_comps := w_comps w |} option
    end.

  (** What happens to the components; no lines in /repo of its own *)
  Inductive happening :=
  | Open (k : kind) (bars : B) (height title : gostring)
  | Redraw (i : nat) (bars : B)
  | Close (i : nat).
  (** onMount, onDatabaseChanged and leaving the page: HeavySqlTimeline.svelte:20-27,37-42,
      HeavyTokenizedSqlTimeline.svelte:24-36,47-53, HeaviestSqlRanking.svelte:20-27,37-39,
      HeaviestTokenizedSqlRanking.svelte:23-36,47-53, suggest/mysql/ExplainAnalyzeChart.svelte:17-30,
      suggest/postgres/ExplainAnalyzeChart.svelte:17-31, suggest/hasura/ExplainChart.svelte:17-30.
      Only those of plans give onMount a function to call at the end. *)
  Definition happen (w : world) (e : happening) : outcome world :=
    match e with
    | Open k bars height title =>
        render height title k (length (w_comps w)) bars
          {| w_heap := w_heap w; w_charts := w_charts w; w_comps := w_comps w ++ [{| co_kind := k; co_chart := None; co_open := true |}] |}
    | Redraw i bars =>
        match nth_error (w_comps w) i with
        | Some c => if co_open c && negb (is_plan (co_kind c)) then render [] [] (co_kind c) i bars w else Ok w
        | None => Ok w
        end
    | Close i =>
        match nth_error (w_comps w) i with
        | Some c =>
            if co_open c then
              let w1 := if is_plan (co_kind c) then destroy w i else w in
              Ok {| w_heap := w_heap w1; w_charts := w_charts w1;
                    w_comps := update (w_comps w1) i (fun c => {| co_kind := co_kind c; co_chart := co_chart c; co_open := false |}) |}
            else Ok w
        | None => Ok w
        end
    end.
  (** one thing after the other; no lines in /repo of its own *)
  Fixpoint happens (w : world) (es : list happening) : outcome world :=
    match es with
    | [] => Ok w
    | e :: es' => do w' <- happen w e; happens w' es'
    end.
End Life.
