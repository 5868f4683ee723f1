(** What sets, stacks, deduplication and windows are, without reference to the code. *)
From Coq Require Import List ZArith Bool Arith Lia Permutation Sorted.
From Verif Require Import Base Lib.
Import ListNotations.

Section S.
  Context {T : Type}.
  (** number of sets made by the operations (latest first) *)
  Fixpoint made (h : list (@set_op T)) : nat :=
    match h with
    | [] => 0
    | (ONew | ONewS _) :: h' => S (made h')
    | _ :: h' => made h'
    end.
  (** [w] is in the [j]-th set after the operations [h] (latest first) *)
  Fixpoint member (h : list (@set_op T)) (j : nat) (w : T) : Prop :=
    match h with
    | [] => False
    | ONew :: h' => member h' j w
    | ONewS os :: h' => member h' j w \/ (j = made h' /\ In w os)
    | OAdd i v :: h' => member h' j w \/ (j = i /\ w = v)
    | ODelete i v :: h' => member h' j w /\ ~ (j = i /\ w = v)
    | OMerge i k :: h' => member h' j w \/ (j = i /\ member h' k w)
    end.
  (** every operation is on sets made before *)
  Fixpoint on_existing (h : list (@set_op T)) : Prop :=
    match h with
    | [] => True
    | (ONew | ONewS _) :: h' => on_existing h'
    | (OAdd i _ | ODelete i _) :: h' => i < made h' /\ on_existing h'
    | OMerge i k :: h' => i < made h' /\ k < made h' /\ on_existing h'
    end.

  (** operations after which a stack is as before, never going below *)
  Inductive balanced : list (@stack_op T) -> Prop :=
  | bal_nil : balanced []
  | bal_top : forall w, balanced w -> balanced (STop :: w)
  | bal_size : forall w, balanced w -> balanced (SSize :: w)
  | bal_push : forall v w1 w2, balanced w1 -> balanced w2 -> balanced (SPush v :: w1 ++ SPop :: w2).

  (** [l] has exactly the elements of [vals], in order, whose key occurs at no
      earlier position *)
  Definition first_of_each_key {U} (f : T -> U) (vals l : list T) : Prop :=
    exists positions, StronglySorted lt positions /\
      (forall i, In i positions <->
         exists x, nth_error vals i = Some x /\
           forall j y, j < i -> nth_error vals j = Some y -> f y <> f x) /\
      map Some l = map (nth_error vals) positions.
End S.
