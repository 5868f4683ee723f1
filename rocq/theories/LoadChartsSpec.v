(** What the load charts should show, said without the code that builds them. *)
From Coq Require Import String List NArith ZArith QArith Bool Lia Arith Permutation.
From Verif Require Import Base Pi LoadCharts.
Import ListNotations.
Local Open Scope nat_scope.

(** [l] is the load of SQL [sql] on database [db] in a row. *)
Definition row_load (r : row) (db sql : gostring) (l : load) : Prop :=
  exists d, In d (tl_dbs r) /\ dl_name d = db /\ In l (dl_sqls d) /\ sl_sql l = sql.
(** A row has at most one load for a database and an SQL. *)
Definition row_keys (r : row) : list (gostring * gostring) :=
  flat_map (fun d => map (fun l => (dl_name d, sl_sql l)) (dl_sqls d)) (tl_dbs r).
Definition distinct_row (r : row) : Prop := NoDup (row_keys r).

(** Milliseconds since 1970 of the row's time: the whole milliseconds passed. *)
Definition at_milli (r : row) (ms : Z) : Prop :=
  (ms * 1000000 <= t_ns (tl_time r) < (ms + 1) * 1000000)%Z.

Section Series.
  Context (targets : list gostring) (threshold : Q).
  (** The load is to be drawn. *)
  Definition drawn_load (r : row) (db sql : gostring) (l : load) : Prop :=
    row_load r db sql l /\ In db targets /\ (threshold <= sl_max l)%Q.

  (** The point of a row: the load as a percentage with all its data, or zero. *)
  Definition point_of (db sql : gostring) (r : row) (p : point) : Prop :=
    (exists l, drawn_load r db sql l /\ (p_y p == 100 * sl_max l)%Q /\ at_milli r (p_x p) /\
       exists pr, p_prop p = Some pr /\ at_milli r (pr_date pr) /\ (pr_percent pr == 100 * sl_max l)%Q /\
         pr_db pr = db /\ pr_sql pr = sql /\ pr_tok pr = sl_tok l) \/
    ((forall l, ~ drawn_load r db sql l) /\ (p_y p == 0)%Q /\ p_prop p = None).
  (** The SQL has been drawn in slot [i] or before. *)
  Definition begun (rows : list row) (db sql : gostring) (i : nat) : Prop :=
    exists j r l, j <= i /\ nth_error rows j = Some r /\ drawn_load r db sql l.
  (** [r] is the first row in which the SQL is drawn. *)
  Definition first_drawn (rows : list row) (db sql : gostring) (r : row) : Prop :=
    exists before after, rows = before ++ r :: after /\ (exists l, drawn_load r db sql l) /\
      forall r' l, In r' before -> ~ drawn_load r' db sql l.
End Series.

(** ** Ranking *)
(** All loads with their database, in order. *)
Definition table_loads (rows : list row) : list (gostring * load) :=
  flat_map (fun r => flat_map (fun d => map (fun l => (dl_name d, l)) (dl_sqls d)) (tl_dbs r)) rows.
(** The sum of the loads of one SQL on one database. *)
Inductive total_load (db sql : gostring) : list (gostring * load) -> Q -> Prop :=
| tl_none : forall q, (q == 0)%Q -> total_load db sql [] q
| tl_same : forall l ls q, sl_sql l = sql -> total_load db sql ls q -> total_load db sql ((db, l) :: ls) (sl_sum l + q)
| tl_other : forall x ls q, (fst x <> db \/ sl_sql (snd x) <> sql) -> total_load db sql ls q -> total_load db sql (x :: ls) q.
Definition occurs_in (rows : list row) (db sql : gostring) : Prop :=
  exists l, In (db, l) (table_loads rows) /\ sl_sql l = sql.

(** ** Raw loads *)
Definition raw_of (rows : list row) (x : raw_load) : Prop :=
  exists r d, In r rows /\ In d (tl_dbs r) /\ rw_db x = dl_name d /\ In (rw_load x) (dl_sqls d) /\ at_milli r (rw_date x).
(** [l] are [size] (or all, if there are fewer) of the largest of [all] by [v],
    largest first. *)
Definition largest {A} (v : A -> Q) (size : nat) (all l : list A) : Prop :=
  length l = Nat.min size (length all) /\
  (forall i j a b, i < j -> nth_error l i = Some a -> nth_error l j = Some b -> (v b <= v a)%Q) /\
  exists rest, Permutation (l ++ rest) all /\ forall a b, In a l -> In b rest -> (v b <= v a)%Q.

(** ** Databases *)
(** The order of names in a dictionary. *)
Definition name_before (a b : gostring) : Prop :=
  (exists x t, b = a ++ x :: t) \/
  (exists p x y s t, a = p ++ x :: s /\ b = p ++ y :: t /\ (x < y)%N).
