(** What the plan panel should show, said without the code that builds it. *)
From Coq Require Import String List NArith ZArith QArith Bool Lia Arith.
From Verif Require Import Base Dec ExplainTree ExplainSpec ExplainLineSpec PgExplainSpec PgPrintSpec PlanView.
Import ListNotations.
Local Open Scope nat_scope.

(** Different nodes are different objects. *)
Definition distinct_objects {A} (l : list (tree (nat * A))) : Prop := NoDup (map fst (flat_map preorder l)).

(** A bar that begins at [start], when the last of its children has ended, and ends
    when the node's own data says so but not before its children.  A bar too short
    to be seen begins a ten thousandth before its end. *)
Definition bar_times {D} (end_time : D -> Q -> Q) (b : bar D) (children : list Q) : Prop :=
  exists start : Q,
    (children = [] -> (start == 0)%Q) /\
    (children <> [] -> (exists e, In e children /\ (e == start)%Q)) /\
    (forall e, In e children -> (e <= start)%Q) /\
    (start <= b_hi b)%Q /\ (end_time (b_data b) start <= b_hi b)%Q /\
    ((b_hi b == start)%Q \/ (b_hi b == end_time (b_data b) start)%Q) /\
    (b_goal b == b_hi b)%Q /\
    (b_lo b <= start)%Q /\ (b_hi b - b_lo b >= 1 # 10000)%Q /\
    ((b_lo b == start)%Q \/ (b_hi b - b_lo b == 1 # 10000)%Q).

(** The tree of bars drawn for a plan tree. *)
Inductive drawn {D} (end_time : D -> Q -> Q) : tree D -> tree (bar D) -> Prop :=
| drawn_node : forall d cs b bs,
    Forall2 (drawn end_time) cs bs -> b_data b = d ->
    bar_times end_time b (map (fun c => b_hi (t_val c)) bs) ->
    drawn end_time (Node d cs) (Node b bs).

(** The number a bar is labelled with. *)
Definition bar_label_ok {D} (b : bar D) : Prop :=
  b_x b <> [] /\ forallb is_digit (b_x b) = true /\ digits_val 0 (b_x b) = N.of_nat (b_num b).

(** Total running time of a MySQL node as the documentation of EXPLAIN ANALYZE
    gives it: the time is the average of the loops. *)
Definition mysql_running_time (d : vm_node) (t : Q) : Prop :=
  exists avg loops, vn_time_avg d = Some avg /\ vn_loops d = Some loops /\ (t == avg * inject_Z loops)%Q.

(** A node of the page has the text, table and numbers that MySQL printed at depth [d]. *)
Definition vm_reads_mysql (d : nat) (n : mysql_node) (v : vm_node) : Prop :=
  vn_text v = mysql_node_text d n /\ mysql_table (mysql_node_text d n) (vn_table v) /\
  vn_width v = None /\
  match mn_estimate n with
  | Some e => exists init cost, mysql_estimate_means e init cost (vn_rows v) /\
      same_number (vn_init_cost v) init /\ same_number (vn_cost v) (Some cost)
  | None => vn_init_cost v = None /\ vn_cost v = None /\ vn_rows v = None
  end /\
  match mn_actual n with
  | Some a => exists first avg rows loops, actual_means a first avg rows loops /\
      same_number (vn_time_first v) (Some first) /\ same_number (vn_time_avg v) (Some avg) /\
      vn_returned v = Some rows /\ vn_loops v = Some loops
  | None => vn_time_first v = None /\ vn_time_avg v = None /\ vn_returned v = None /\ vn_loops v = None
  end.
(** The same for PostgreSQL. *)
Definition vm_reads_pg (ind : nat) (n : pg_node) (v : vm_node) : Prop :=
  vn_text v = join [nl] (pg_node_lines ind n) /\ pg_table (pg_node_lines ind n) (vn_table v) /\
  (exists init cost rows width, pg_estimate_means (pn_estimate n) init cost rows width /\
      same_number (vn_init_cost v) (Some init) /\ same_number (vn_cost v) (Some cost) /\
      vn_rows v = Some rows /\ vn_width v = Some width) /\
  match pn_actual n with
  | Some a => exists first avg rows loops, actual_means a first avg rows loops /\
      same_number (vn_time_first v) (Some first) /\ same_number (vn_time_avg v) (Some avg) /\
      vn_returned v = Some rows /\ vn_loops v = Some loops
  | None => vn_time_first v = None /\ vn_time_avg v = None /\ vn_returned v = None /\ vn_loops v = None
  end.
