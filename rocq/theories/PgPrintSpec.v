(** What reading a printed PostgreSQL plan back should give. *)
From Coq Require Import String List NArith ZArith QArith Bool Lia Arith.
From Verif Require Import Base Dec ExplainTree ExplainSpec ExplainLineSpec PgExplainSpec PgExplain.
Import ListNotations.
Local Open Scope nat_scope.

(** The text does not begin with white space. *)
Definition flush_left (s : gostring) : Prop :=
  match s with [] => False | c :: _ => is_space c = false end.

(** The description has no colon and does not itself contain a phrase that
    introduces numbers; a label is the name of a plan; each further line is a
    "Key: value"; the numbers are numbers. *)
Definition pg_printable (n : pg_node) : Prop :=
  ~ In 58%N (pn_desc n) /\ ~ occurs (lit "(cost=") (pn_desc n) /\
  ~ occurs (lit "(actual time=") (pn_desc n) /\
  match pn_label n with
  | Some l => name_line l /\ flush_left l /\ ~ occurs (lit "(cost=") l
  | None => True
  end /\
  Forall info_line (pn_infos n) /\
  (exists init cost rows width, pg_estimate_means (pn_estimate n) init cost rows width) /\
  match pn_actual n with
  | Some a => exists first avg rows loops, actual_means a first avg rows loops
  | None => True
  end.
(** The topmost node stands at the left margin. *)
Definition pg_tree_printable (t : tree pg_node) : Prop :=
  Forall pg_printable (preorder t) /\ flush_left (pn_desc (t_val t)).

(** Two trees of the same shape whose nodes correspond; [ind] is where the node is
    printed. *)
Inductive pg_mirrors {B} (R : nat -> pg_node -> B -> Prop) : nat -> tree pg_node -> tree B -> Prop :=
| pg_mirrors_node : forall ind n b cs ds, R ind n b -> Forall2 (pg_mirrors R (pg_below ind n)) cs ds ->
    pg_mirrors R ind (Node n cs) (Node b ds).

(** A node read has the printed lines, the table they name, and the printed numbers. *)
Definition pg_reads_back (ind : nat) (n : pg_node) (v : tree_node) : Prop :=
  let r := tn_node v in
  rn_lines r = pg_node_lines ind n /\ pg_table (pg_node_lines ind n) (rn_table r) /\
  (exists init cost rows width, pg_estimate_means (pn_estimate n) init cost rows width /\
     same_number (rn_init_cost r) (Some init) /\ same_number (rn_cost r) (Some cost) /\
     rn_rows r = Some rows /\ rn_width r = Some width) /\
  match pn_actual n with
  | Some a => exists first avg rows loops, actual_means a first avg rows loops /\
      same_number (rn_time_first r) (Some first) /\ same_number (rn_time_avg r) (Some avg) /\
      rn_returned r = Some rows /\ rn_loops r = Some loops
  | None => rn_time_first r = None /\ rn_time_avg r = None /\ rn_returned r = None /\ rn_loops r = None
  end.

(** A group of lines and the node it becomes. *)
Definition becomes (g : list gostring) (v : tree_node) : Prop :=
  exists sp, parse_node g = Ok (sp, tn_node v) /\ tn_space v = Z.of_nat sp.
