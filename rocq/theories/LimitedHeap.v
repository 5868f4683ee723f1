(** Model of lib/heap.go with the parts of Go's container/heap it calls. *)
From Coq Require Import List ZArith Bool Arith Lia.
From Verif Require Import Base.
Import ListNotations.
Local Open Scope nat_scope.

Section LimitedHeap.
  Context {A : Type} (less : A -> A -> bool).

  (** [vals[i] = x]; no effect out of range (never reached, see [swap]) *)
  (** Go's slices; no lines in /repo, used at heap.go:56-58 *)
  Fixpoint assign (i : nat) (x : A) (vals : list A) : list A :=
    match vals, i with
    | [], _ => []
    | _ :: vals', 0 => x :: vals'
    | v :: vals', S i' => v :: assign i' x vals'
    end.

  (** heap.go:52-54; an index out of range panics *)
  Definition less_at (i j : nat) (vals : list A) : outcome bool :=
    match nth_error vals i, nth_error vals j with
    | Some x, Some y => Ok (less x y)
    | _, _ => Panic
    end.

  (** heap.go:56-58 *)
  Definition swap (i j : nat) (vals : list A) : outcome (list A) :=
    match nth_error vals i, nth_error vals j with
    | Some x, Some y => Ok (assign j x (assign i y vals))
    | _, _ => Panic
    end.

  (** container/heap up: [for { i := (j-1)/2; if i == j || !Less(j, i) { break };
      Swap(i, j); j = i }].  [fuel] bounds the rounds (running out is Panic). *)
  Fixpoint up (fuel j : nat) (vals : list A) : outcome (list A) :=
    match fuel with
    | 0 => Panic
    | S fuel' =>
        let i := (j - 1) / 2 in
        if Nat.eqb i j then Ok vals
        else do l <- less_at j i vals;
             if l then do vals' <- swap i j vals; up fuel' i vals'
             else Ok vals
    end.

  (** container/heap down, lines "i := i0; for { j1 := 2*i + 1; ... }" *)
  Fixpoint down (fuel i n : nat) (vals : list A) : outcome (list A) :=
    match fuel with
    | 0 => Panic
    | S fuel' =>
        let j1 := 2 * i + 1 in
        if Nat.leb n j1 then Ok vals
        else
          let j2 := j1 + 1 in
          do right <- (if Nat.ltb j2 n then less_at j2 j1 vals else Ok false);
          let j := if right then j2 else j1 in
          do l <- less_at j i vals;
          if l then do vals' <- swap i j vals; down fuel' j n vals'
          else Ok vals
    end.

  (** container/heap Push with heap.go:60-63 *)
  Definition heap_push (x : A) (vals : list A) : outcome (list A) :=
    let vals' := vals ++ [x] in
    up (length vals') (length vals' - 1) vals'.

  (** heap.go:65-71; [vals[-1]] panics *)
  Definition pop_last (vals : list A) : outcome (A * list A) :=
    match vals with
    | [] => Panic
    | _ => match nth_error vals (length vals - 1) with
           | Some v => Ok (v, firstn (length vals - 1) vals)
           | None => Panic
           end
    end.

  (** container/heap Pop: [n := Len() - 1; Swap(0, n); down(h, 0, n); return h.Pop()];
      on the empty heap [Swap(0, -1)] panics *)
  Definition heap_pop (vals : list A) : outcome (A * list A) :=
    match vals with
    | [] => Panic
    | _ =>
        let n := length vals - 1 in
        do vals1 <- swap 0 n vals;
        do vals2 <- down (length vals) 0 n vals1;
        pop_last vals2
    end.

  (** heap.go:27-32 *)
  Definition push (limit : Z) (x : A) (vals : list A) : outcome (list A) :=
    do vals' <- heap_push x vals;
    if Z.ltb limit (Z.of_nat (length vals')) then do r <- heap_pop vals'; Ok (snd r)
    else Ok vals'.

  (** heap.go:34-41: the values and the heap afterwards *)
  Fixpoint pop_all (fuel : nat) (vals : list A) : outcome (list A * list A) :=
    match vals with
    | [] => Ok ([], vals)
    | _ => match fuel with
           | 0 => Panic
           | S fuel' =>
               do r <- heap_pop vals;
               do s <- pop_all fuel' (snd r);
               Ok (fst r :: fst s, snd s)
           end
    end.

  (** a sequence of [Push] *)
  (** heap.go:27-32 *)
  Fixpoint push_all (limit : Z) (xs vals : list A) : outcome (list A) :=
    match xs with
    | [] => Ok vals
    | x :: xs' => do vals' <- push limit x vals; push_all limit xs' vals'
    end.

  (** NewLimitedHeap ([Init] of the empty heap does nothing, heap.go:14-21), the
      pushes, and [PopAll] *)
  Definition push_and_pop (limit : Z) (xs : list A) : outcome (list A * list A) :=
    do vals <- push_all limit xs [];
    pop_all (length vals) vals.
End LimitedHeap.
