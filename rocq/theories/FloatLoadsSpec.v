(** What rounding may change in the loads. *)
From Coq Require Import String List NArith ZArith QArith Qabs Bool.
From Verif Require Import Base Pi LoadCharts LoadChartsSpec FloatsSpec.
Import ListNotations.
Local Open Scope Q_scope.

(** [x] is [y] up to [n] times the relative error of a rounding *)
Definition within_eps (n : nat) (x y : Q) : Prop := Qabs (x - y) <= inject_Z (Z.of_nat n) * eps * y.
(** the same entry, but for the sum *)
Definition near_load (n : nat) (l l' : load) : Prop :=
  sl_sql l = sl_sql l' /\ sl_tok l = sl_tok l' /\ sl_max l = sl_max l' /\ is_float (sl_sum l) /\ 0 <= sl_sum l' /\ within_eps n (sl_sum l) (sl_sum l').
Definition near_db (n : nat) (d d' : @db_load Q) : Prop := dl_name d = dl_name d' /\ Forall2 (near_load n) (dl_sqls d) (dl_sqls d').
Definition near_row (n : nat) (r r' : row) : Prop := tl_time r = tl_time r' /\ Forall2 (near_db n) (tl_dbs r) (tl_dbs r').
(** all loads are numbers of binary64, not negative, and far from overflow also together *)
Definition plain_values (vs : list Q) : Prop :=
  Forall (fun v => is_float v /\ 0 <= v) vs /\ fold_right Qplus 0 vs <= Qpower (2 # 1) 1000.
