(** Model of database/dservice/dparser/index_target_builder.go (candidate
    enumeration) and index_target_table.go. *)
From Coq Require Import String List NArith Bool Lia Arith Permutation.
From Verif Require Import Base IndexText.
Import ListNotations.

(** field_type.go:3-11 *)
Inductive field_type := FReference | FCondition | FAggregation | FSubquery | FStar.
(** field_type.go:6 *)
Definition is_reference (t : field_type) : bool := match t with FReference => true | _ => false end.
(** field_type.go:7 *)
Definition is_condition (t : field_type) : bool := match t with FCondition => true | _ => false end.
(** index_target_builder.go:108 *)
Definition usable (t : field_type) : bool := (is_reference t || is_condition t)%bool.

(** index_field.go:3-6 IndexField, and the part of FieldColumn
    (field_column.go:3-10) that composition looks at: name and type. *)
Notation ifield := (list N * field_type)%type (only parsing).
(** index_field.go:3-6 *)
Definition if_name (f : ifield) : gostring := fst f.
(** index_field.go:3-6 *)
Definition if_type (f : ifield) : field_type := snd f.

(** The set of field columns is a set of pointers; per table the names are
    distinct, so a column is identified by its name.  Deletion: *)
(** index_target_builder.go:112 *)
Definition del (fc : ifield) (s : list ifield) : list ifield :=
  filter (fun x => negb (seqb (if_name x) (if_name fc))) s.

(** a position for each element; no lines in /repo of its own *)
Fixpoint mapi_from {A B} (i : nat) (f : nat -> A -> B) (l : list A) : list B :=
  match l with [] => [] | x :: l' => f i x :: mapi_from (S i) f l' end.
(** a position for each element; no lines in /repo of its own *)
Definition mapi {A B} := @mapi_from A B 0.

(** Iteration order of a Go map: at each place of the execution (a path) an
    arbitrary permutation of the elements. *)
(** Go's range over a map; no lines in /repo of its own *)
Definition order (A : Type) := list nat -> list A -> list A.
(** Go's range over a map; no lines in /repo of its own *)
Definition is_order {A} (o : order A) : Prop := forall p l, Permutation (o p l) l.

(** index_target_builder.go:105-132 compositeFieldColumns.  [fuel] bounds the
    recursion depth; the number of columns suffices (composite_fuel).  The
    append at 122 is a functional append here; IndexHeap.v models it in place. *)
Fixpoint composite (ord : order ifield) (fuel : nat) (path : list nat) (s : list ifield) : list (list ifield) :=
  match fuel with
  | 0 => []
  | S f =>
      concat (mapi (fun i fc =>
        if usable (if_type fc)
        then [fc] :: map (fun r => r ++ [fc]) (composite ord f (path ++ [i]) (del fc s))
        else []) (ord path s))
  end.

(** index_target_builder.go:87-96: from a reference on, only references, by name *)
Fixpoint refs_sorted_from (prev : ifield) (rest : list ifield) : bool :=
  match rest with
  | [] => true
  | f :: rest' =>
      (is_reference (if_type f) && negb (sltb (if_name f) (if_name prev)) && refs_sorted_from f rest')%bool
  end.
(** index_target_builder.go:78-97 (body for one composition; false = goto next) *)
Fixpoint efficient_from (total len : nat) (fields : list ifield) : bool :=
  match fields with
  | [] => true
  | f :: rest =>
      if is_reference (if_type f) then
        (Nat.eqb len total && refs_sorted_from f rest && efficient_from total len rest)%bool
      else efficient_from total len rest
  end.
(** index_target_builder.go:78-97 *)
Definition efficient (total : nat) (fields : list ifield) : bool :=
  efficient_from total (length fields) fields.
(** index_target_builder.go:73-103 extractEfficientIndexes *)
Definition extract_efficient (ord : order ifield) (path : list nat) (s : list ifield) : list (list ifield) :=
  filter (efficient (length s)) (composite ord (length s) path s).

(** index_target_builder.go:134-152 removePkOnlyFields *)
Definition str_in (x : gostring) (l : list gostring) : bool := existsb (seqb x) l.
(** index_target_builder.go:138-146 *)
Definition pk_only (pks : list gostring) (fs : list ifield) : bool :=
  forallb (fun f => str_in (if_name f) pks) fs.
(** index_target_builder.go:134-152 *)
Definition remove_pk_only (pks : list gostring) (l : list (list ifield)) : list (list ifield) :=
  filter (fun fs => negb (pk_only pks fs)) l.

(** index_target_builder.go:66-71 buildIndexComposition *)
Definition index_composition (ord : order ifield) (path : list nat) (s : list ifield) (pks : list gostring)
  : list (list ifield) :=
  remove_pk_only pks (extract_efficient ord path s).

(** index_target_table.go:10-13 *)
Record index_target_table := { itt_table : gostring; itt_fields : list ifield }.
(** index_target_table.go:15-23 ToIndexTarget *)
Definition to_index_target (t : index_target_table) : index_target :=
  mk_it (itt_table t) (map if_name (itt_fields t)).

(** index_target_table.go:34-55: the less function *)
Fixpoint names_less (a b : list ifield) : bool :=
  match a, b with
  | x :: a', y :: b' =>
      if seqb (if_name x) (if_name y) then names_less a' b' else sltb (if_name x) (if_name y)
  | _, _ => false
  end.
(** index_target_table.go:34-55 *)
Definition itt_less (a b : index_target_table) : bool :=
  if negb (seqb (itt_table a) (itt_table b)) then sltb (itt_table a) (itt_table b)
  else if negb (Nat.eqb (length (itt_fields a)) (length (itt_fields b)))
       then Nat.ltb (length (itt_fields a)) (length (itt_fields b))
       else names_less (itt_fields a) (itt_fields b).

(** sort.Slice: some permutation in which no later element is less than an
    earlier one (not stable). *)
(** Go's sort.Slice; no lines in /repo *)
Inductive sorted_by {A} (less : A -> A -> bool) : list A -> Prop :=
| sb_nil : sorted_by less []
| sb_cons : forall x l, Forall (fun y => less y x = false) l -> sorted_by less l -> sorted_by less (x :: l).
(** Go's sort.Slice; no lines in /repo *)
Definition is_sort {A} (less : A -> A -> bool) (srt : list A -> list A) : Prop :=
  forall l, Permutation (srt l) l /\ sorted_by less (srt l).
