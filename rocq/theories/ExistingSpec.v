(** What removing existing indexes, grouping index rows and assembling schemas
    should mean. *)
From Coq Require Import List NArith Bool Sorting.
From Verif Require Import Base IndexText IndexBuild TableFields Existing.
Import ListNotations.

(** Equal up to letter case (for a given folding of code points). *)
Definition same_name (fold : rune -> rune) (a b : gostring) : Prop := Forall2 (fun x y => fold x = fold y) a b.
(** The index is there already. *)
Definition covered (fold : rune -> rune) (it ex : index_target) : Prop :=
  it_table ex = it_table it /\ Forall2 (same_name fold) (it_cols it) (it_cols ex).

(** [sub] is obtained from [l] by leaving out exactly the elements without [P]. *)
Inductive kept {A} (P : A -> Prop) : list A -> list A -> Prop :=
| kept_nil : kept P [] []
| kept_in : forall x l sub, P x -> kept P l sub -> kept P (x :: l) (x :: sub)
| kept_out : forall x l sub, ~ P x -> kept P l sub -> kept P (x :: l) sub.

(** Index rows of one index. *)
Definition index_rows (g : (gostring * gostring) * list gostring) : list flat_row :=
  map (fun c => mk_row (fst (fst g)) (snd (fst g)) c) (snd g).
Definition row_key (r : flat_row) : gostring * gostring := (fr_table r, fr_index r).
(** ORDER BY TABLE_NAME, INDEX_NAME: no later row has a smaller key *)
Definition key_lt (a b : gostring * gostring) : Prop :=
  sltb (fst a) (fst b) = true \/ (fst a = fst b /\ sltb (snd a) (snd b) = true).
Definition rows_sorted (rows : list flat_row) : Prop :=
  StronglySorted (fun a b => ~ key_lt (row_key b) (row_key a)) rows.

(** Schema of table [t] according to the rows. *)
Definition rows_of (t : gostring) (rows : list (gostring * gostring * bool)) :=
  filter (fun r => seqb (fst (fst r)) t) rows.
Definition schema_from (t : gostring) (rows : list (gostring * gostring * bool)) : table_schema :=
  mk_ts t (map (fun r => snd (fst r)) (rows_of t rows))
          (map (fun r => snd (fst r)) (filter (fun r => snd r) (rows_of t rows))).
