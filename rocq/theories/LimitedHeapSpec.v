(** What a comparison must satisfy to be an order. *)
From Coq Require Import List Bool.

(** [less] behaves like [<] on some measure of the elements *)
Definition strict_weak {A} (less : A -> A -> bool) : Prop :=
  (forall x y, less x y = true -> less y x = false) /\
  (forall x y z, less x y = false -> less y z = false -> less x z = false).
