(** Names that JavaScript finds on every object, and tables without them. *)
From Coq Require Import String List NArith ZArith QArith Bool.
From Verif Require Import Base Pi LoadCharts LoadChartsSpec.
Import ListNotations.

Definition on_every_object (k : gostring) : Prop :=
  In k (map of_string ["constructor"; "__proto__"; "__defineGetter__"; "__defineSetter__"; "__lookupGetter__"; "__lookupSetter__";
                       "hasOwnProperty"; "isPrototypeOf"; "propertyIsEnumerable"; "toLocaleString"; "toString"; "valueOf"]%string).
(** the same table without some of its databases and SQLs *)
Inductive part {A B} (keep : A -> Prop) (same : A -> B -> Prop) : list A -> list B -> Prop :=
| part_nil : part keep same [] []
| part_keep : forall a b l l', keep a -> same a b -> part keep same l l' -> part keep same (a :: l) (b :: l')
| part_drop : forall a l l', ~ keep a -> part keep same l l' -> part keep same (a :: l) l'.
Definition plain_db (d d' : @db_load Q) : Prop :=
  dl_name d' = dl_name d /\ part (fun l => ~ on_every_object (sl_sql l)) eq (dl_sqls d) (dl_sqls d').
Definition plain_row (r r' : row) : Prop :=
  tl_time r' = tl_time r /\ part (fun d => ~ on_every_object (dl_name d)) plain_db (tl_dbs r) (tl_dbs r').
Definition plain_rows (rows rows' : list row) : Prop := Forall2 plain_row rows rows'.
