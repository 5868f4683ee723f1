(** Which indexes are worth suggesting for one table, stated on the set of its
    referenced columns. *)
From Coq Require Import String List NArith Bool Lia Permutation.
From Verif Require Import Base IndexText IndexBuild.
Import ListNotations.

(** Arrangement of a non-empty subset of [c]: no repetition, all from [c]. *)
Definition arrangement (c l : list ifield) : Prop :=
  l <> [] /\ NoDup (map fst l) /\ (forall x, In x l -> In x c).

(** Ascending by name. *)
Fixpoint ascending (l : list ifield) : Prop :=
  match l with
  | [] => True
  | x :: l' => match l' with
               | [] => True
               | y :: _ => sltb (fst x) (fst y) = true
               end /\ ascending l'
  end.

Definition conditions (s : list ifield) : list ifield :=
  filter (fun f => match snd f with FCondition => true | _ => false end) s.
Definition references (s : list ifield) : list ifield :=
  filter (fun f => match snd f with FReference => true | _ => false end) s.

(** A candidate: an arrangement of conditions, or all conditions in any order
    followed by all plain references in name order. *)
Definition candidate (s l : list ifield) : Prop :=
  arrangement (conditions s) l \/
  (references s <> [] /\ exists cs rs, l = cs ++ rs /\ Permutation cs (conditions s) /\
     Permutation rs (references s) /\ ascending rs).

(** Every column belongs to the primary key. *)
Definition only_pk (pks : list gostring) (l : list ifield) : Prop :=
  forall f, In f l -> In (fst f) pks.
