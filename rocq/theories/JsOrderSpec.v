(** The order of an object's members, and of the first appearances in the table of loads. *)
From Coq Require Import String List NArith ZArith QArith Bool Permutation.
From Verif Require Import Base Dec IndexBuild Pi LoadCharts LoadChartsSpec.
Import ListNotations.

(** one element stands before another in a list *)
Definition before {A} (l : list A) (a b : A) : Prop := exists x y z, l = x ++ a :: y ++ b :: z.
(** an element appears, and the other one not up to there *)
Definition appears_first {A} (l : list A) (a b : A) : Prop := a <> b /\ exists x y, l = x ++ a :: y /\ ~ In b x.
(** an array index of JavaScript: the decimal text of a number below 2^32 - 1 *)
Definition index_text (k : gostring) (n : N) : Prop := k = dec_of_N n /\ (n < 4294967295)%N.
(** a member is listed before another: indexes first, by number; then the other members as
    [created] says *)
Definition member_first (created : gostring -> gostring -> Prop) (a b : gostring) : Prop :=
  (exists n, index_text a n /\ ((exists m, index_text b m /\ (n < m)%N) \/ forall m, ~ index_text b m)) \/
  ((forall n, ~ index_text a n) /\ (forall m, ~ index_text b m) /\ created a b).
(** Array.prototype.sort: sorted, and equals stay in their order *)
Definition stable_sort {A} (less : A -> A -> bool) (srt : list A -> list A) : Prop :=
  forall l, Permutation (srt l) l /\ sorted_by less (srt l) /\
    forall a, filter (fun b => negb (less a b) && negb (less b a)) (srt l) = filter (fun b => negb (less a b) && negb (less b a)) l.
(** the databases of the table, and its SQLs with their databases *)
Definition names_in (rows : list row) : list gostring := flat_map (fun r => map dl_name (tl_dbs r)) rows.
Definition sqls_in (rows : list row) : list (gostring * gostring) :=
  flat_map (fun r => flat_map (fun d => map (fun l => (dl_name d, sl_sql l)) (dl_sqls d)) (tl_dbs r)) rows.
