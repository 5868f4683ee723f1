(** What rounding to binary64 has to do. *)
From Coq Require Import QArith Qpower Qabs ZArith.
Local Open Scope Q_scope.

(** the finite numbers of binary64 *)
Definition is_float (f : Q) : Prop :=
  exists m e, (Z.abs m < 2 ^ 53)%Z /\ (-1074 <= e <= 971)%Z /\ f == inject_Z m * Qpower (2 # 1) e.
(** [f] is a number next to [x]: no other is nearer *)
Definition nearest (x f : Q) : Prop := is_float f /\ forall g, is_float g -> Qabs (x - f) <= Qabs (x - g).
(** far from overflow *)
Definition moderate (x : Q) : Prop := Qabs x <= Qpower (2 # 1) 1023.
(** a rounding of binary64, however it decides between two numbers equally near *)
Definition rounding (rnd : Q -> Q) : Prop := forall x, moderate x -> nearest x (rnd x).
(** the relative error of one rounding *)
Definition eps : Q := Qpower (2 # 1) (-53).
