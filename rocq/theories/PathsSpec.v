(** What paths name and what a server reads. *)
From Coq Require Import String List NArith Bool Lia Arith.
From Verif Require Import Base.
Import ListNotations.

(** Following a path from a directory (the list of names from the root), without links:
    empty parts and dots stay, two dots go to the parent. *)
Inductive follow : list gostring -> list gostring -> list gostring -> Prop :=
| fo_end : forall d, follow d [] d
| fo_stay : forall d c cs e, c = [] \/ c = lit "." -> follow d cs e -> follow d (c :: cs) e
| fo_root : forall cs e, follow [] cs e -> follow [] (lit ".." :: cs) e
| fo_up : forall d x cs e, follow d cs e -> follow (d ++ [x]) (lit ".." :: cs) e
| fo_down : forall d c cs e, c <> [] -> c <> lit "." -> c <> lit ".." -> follow (d ++ [c]) cs e -> follow d (c :: cs) e.
(** The parts of a text between slashes *)
Inductive parts : gostring -> list gostring -> Prop :=
| pa_last : forall s, ~ In 47%N s -> parts s [s]
| pa_more : forall s rest cs, ~ In 47%N s -> parts rest cs -> parts (s ++ 47%N :: rest) (s :: cs).
Definition absolute (p : gostring) : Prop := exists q, p = 47%N :: q.
(** What [p] names in directory [cwd] *)
Definition names (cwd : list gostring) (p : gostring) (e : list gostring) : Prop :=
  exists cs, parts p cs /\ ((absolute p /\ follow [] cs e) \/ (~ absolute p /\ follow cwd cs e)).

(** How a server reads the path of a request *)
Definition hex_of (c : N) (v : N) : Prop :=
  (48 <= c <= 57 /\ v = c - 48 \/ 65 <= c <= 70 /\ v = c - 65 + 10 \/ 97 <= c <= 102 /\ v = c - 97 + 10)%N.
Inductive decodes : gostring -> gostring -> Prop :=
| de_end : decodes [] []
| de_char : forall c s p, c <> 37%N -> decodes s p -> decodes (c :: s) (c :: p)
| de_hex : forall a b x y s p, hex_of a x -> hex_of b y -> decodes s p -> decodes (37%N :: a :: b :: s) (x * 16 + y :: p)%N.
