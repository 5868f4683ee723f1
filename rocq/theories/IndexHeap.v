(** index_target_builder.go:105-132 compositeFieldColumns once more, now with
    Go's slice memory: a slice is a view of a backing array, [append] writes in
    place when there is room and reallocates otherwise. *)
From Coq Require Import String List NArith Bool Lia Arith Permutation.
From Verif Require Import Base IndexText IndexBuild.
Import ListNotations.

(** index_target_builder.go:116-119,122-125: a pointer to an IndexField, or an unused place *)
Definition cell := option (list N * field_type).
(** Backing arrays by address; [h_next] is the next free address. *)
(** Go's memory; no lines in /repo *)
Record heap := mk_heap { h_next : nat; h_arr : nat -> list cell }.
(** A slice header: array, length, capacity (all slices here start at 0; the
    slicing [r[:]] at 121 keeps the header as it is). *)
Record slice := mk_slice { s_id : nat; s_len : nat; s_cap : nat }.

(** Go's memory; no lines in /repo *)
Fixpoint set_nth {A} (l : list A) (n : nat) (x : A) : list A :=
  match l, n with
  | [], _ => []
  | _ :: l', 0 => x :: l'
  | y :: l', S n' => y :: set_nth l' n' x
  end.
(** Go's memory; no lines in /repo *)
Definition write (h : heap) (id : nat) (a : list cell) : heap :=
  {| h_next := h_next h; h_arr := fun i => if Nat.eqb i id then a else h_arr h i |}.
(** Go's memory; no lines in /repo *)
Definition alloc (h : heap) (a : list cell) : heap * nat :=
  ({| h_next := S (h_next h); h_arr := fun i => if Nat.eqb i (h_next h) then a else h_arr h i |}, h_next h).

(** The composite literal [index{{...}}] at 115-118: a fresh array of capacity 1. *)
Definition slice_of1 (h : heap) (x : list N * field_type) : heap * slice :=
  let '(h', id) := alloc h [Some x] in (h', mk_slice id 1 1).

(** [append(s, x)].  [grow] is the capacity the runtime picks beyond the minimum
    when it has to reallocate; it may depend on anything (here: the address, the
    old capacity). *)
(** Go's memory; no lines in /repo *)
Definition append_slice (grow : nat -> nat -> nat) (h : heap) (s : slice) (x : list N * field_type) : heap * slice :=
  if Nat.ltb (s_len s) (s_cap s) then
    (write h (s_id s) (set_nth (h_arr h (s_id s)) (s_len s) (Some x)),
     mk_slice (s_id s) (S (s_len s)) (s_cap s))
  else
    let cap := S (s_len s) + grow (h_next h) (s_cap s) in
    let '(h', id) := alloc h (firstn (s_len s) (h_arr h (s_id s)) ++ Some x :: repeat None (grow (h_next h) (s_cap s))) in
    (h', mk_slice id (S (s_len s)) cap).

(** Go's memory; no lines in /repo *)
Definition read (h : heap) (s : slice) : list cell := firstn (s_len s) (h_arr h (s_id s)).

(** The loop over [res2] at 120-128. *)
Fixpoint append_all (grow : nat -> nat -> nat) (h : heap) (l : list slice) (x : list N * field_type)
    : heap * list slice :=
  match l with
  | [] => (h, [])
  | r :: l' =>
      let '(h1, r2) := append_slice grow h r x in
      let '(h2, rest) := append_all grow h1 l' x in
      (h2, r2 :: rest)
  end.
(** The loop over [fColumns.Values()]; the outer list of compositions is only
    appended to by its single owner and is an ordinary list here. *)
(** index_target_builder.go:107-129 *)
Definition composite_loop (grow : nat -> nat -> nat)
    (rec : nat -> list N * field_type -> heap -> heap * list slice)
    : nat -> list (list N * field_type) -> heap -> heap * list slice :=
  fix go (i : nat) (l : list (list N * field_type)) (h : heap) : heap * list slice :=
    match l with
    | [] => (h, [])
    | fc :: l' =>
        if usable (if_type fc) then
          let '(h1, res2) := rec i fc h in
          let '(h2, c1) := slice_of1 h1 fc in
          let '(h3, cs) := append_all grow h2 res2 fc in
          let '(h4, rest) := go (S i) l' h3 in
          (h4, c1 :: cs ++ rest)
        else go (S i) l' h
    end.
(** index_target_builder.go:105-132 *)
Fixpoint composite_heap (grow : nat -> nat -> nat) (ord : order ifield) (fuel : nat) (path : list nat)
    (s : list ifield) (h : heap) : heap * list slice :=
  match fuel with
  | 0 => (h, [])
  | S f =>
      composite_loop grow (fun i fc h => composite_heap grow ord f (path ++ [i]) (del fc s) h) 0 (ord path s) h
  end.
