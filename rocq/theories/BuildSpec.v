(** What a list of suggestions has to look like. *)
From Coq Require Import String List NArith Bool Lia Permutation Sorting.
From Verif Require Import Base IndexText IndexBuild IndexBuildSpec TableFields TableFieldsSpec.
Import ListNotations.

(** Dictionary order of equally long lists of names. *)
Definition cols_lt (a b : list gostring) : Prop :=
  exists p x y r r', a = p ++ x :: r /\ b = p ++ y :: r' /\ sltb x y = true.
(** Table, then number of columns, then columns. *)
Definition target_lt (a b : index_target) : Prop :=
  sltb (it_table a) (it_table b) = true \/
  (it_table a = it_table b /\
   (length (it_cols a) < length (it_cols b) \/
    (length (it_cols a) = length (it_cols b) /\ cols_lt (it_cols a) (it_cols b)))).

(** The columns of [t] in a list of uses: each once, as a condition iff it is
    used as a condition. *)
Definition columns_used (us : list use) (t : gostring) (s : list ifield) : Prop :=
  NoDup (map fst s) /\
  forall c ty, In (c, ty) s <->
    (ty = FCondition /\ In (t, c, FCondition) us) \/
    (ty = FReference /\ In (t, c, FReference) us /\ ~ In (t, c, FCondition) us).

(** No tables visible from outside. *)
Definition nothing : env := fun _ => None.

(** Only these kinds of use occur. *)
Definition plain (us : list use) : Prop :=
  forall t c ty, In (t, c, ty) us -> ty = FReference \/ ty = FCondition.

(** Each derived table's scope is listed among the tables of its parent. *)
Fixpoint listed (s : scope) : Prop :=
  match s with
  | Scope _ _ fscs tables subs =>
      (fix all (l : list scope) : Prop := match l with [] => True | x :: l' => listed x /\ all l' end) fscs /\
      (fix all (l : list scope) : Prop :=
         match l with [] => True | x :: l' => (In (scope_name x) (map t_name tables) /\ listed x) /\ all l' end) subs
  end.

(** SQL's rule for a qualified name: the innermost query block that declares
    the alias decides.  Blocks are lists of (alias, table), innermost first. *)
Fixpoint sql_table (blocks : list (list (gostring * gostring))) (a : gostring) : option gostring :=
  match blocks with
  | [] => None
  | b :: bs => match mget b a with Some t => Some t | None => sql_table bs a end
  end.
