(** Model of lib/{set,stack,uniq,time,join,sort}.go. *)
From Coq Require Import List ZArith Bool Arith Lia Permutation.
From Verif Require Import Base.
Import ListNotations.

(** ** lib/set.go *)
Section GoSet.
  Context {T : Type} (eq_dec : forall a b : T, {a = b} + {a <> b}).

  (** set.go:3-5: the keys of the map, each once *)
  Definition gset := list T.

  (** set.go:42-47 *)
  Definition contains (v : T) (s : gset) : bool := if in_dec eq_dec v s then true else false.
  (** set.go:19-21 *)
  Definition add (v : T) (s : gset) : gset := if contains v s then s else s ++ [v].
  (** set.go:29-31 *)
  Definition delete (v : T) (s : gset) : gset :=
    filter (fun x => if eq_dec x v then false else true) s.
  (** set.go:7-9 and 11-17 *)
  Definition new_set : gset := [].
  (** set.go:11-17 *)
  Definition new_set_s (origins : list T) : gset := fold_left (fun s o => add o s) origins [].
  (** set.go:33-40; [ord] is the order in which this run visits the map *)
  Definition values (ord : list T -> list T) (s : gset) : list T := ord s.
  (** set.go:23-27 *)
  Definition merge (ord : list T -> list T) (s os : gset) : gset :=
    fold_left (fun s v => add v s) (values ord os) s.
  (** set.go:49-51 *)
  Definition count (s : gset) : nat := length s.

  (** A program using several sets; they are shared by reference, so they live in
      a store. *)
  (** set.go:19-51: the methods *)
  Inductive set_op :=
  | ONew | ONewS (origins : list T) | OAdd (i : nat) (v : T) | ODelete (i : nat) (v : T)
  | OMerge (i j : nat).

  (** a set is changed through its pointer; no lines in /repo of its own *)
  Fixpoint modify (i : nat) (f : gset -> gset) (st : list gset) : list gset :=
    match st, i with
    | [], _ => []
    | s :: st', 0 => f s :: st'
    | s :: st', S i' => s :: modify i' f st'
    end.

  (** a method of a nil set panics *)
  (** set.go:19-31 *)
  Definition set_step (ord : list T -> list T) (o : set_op) (st : list gset) : outcome (list gset) :=
    match o with
    | ONew => Ok (st ++ [new_set])
    | ONewS os => Ok (st ++ [new_set_s os])
    | OAdd i v => if Nat.ltb i (length st) then Ok (modify i (add v) st) else Panic
    | ODelete i v => if Nat.ltb i (length st) then Ok (modify i (delete v) st) else Panic
    | OMerge i j =>
        match nth_error st j with
        | Some os => if Nat.ltb i (length st) then Ok (modify i (fun s => merge ord s os) st) else Panic
        | None => Panic
        end
    end.

  (** [ords] has the visiting order of each step *)
  (** calls one after another; no lines in /repo of its own *)
  Fixpoint set_run (ords : nat -> list T -> list T) (ops : list set_op) (st : list gset) : outcome (list gset) :=
    match ops with
    | [] => Ok st
    | o :: ops' => do st' <- set_step (ords (length ops')) o st; set_run ords ops' st'
    end.
End GoSet.

(** ** lib/uniq.go:3-17; [res] and [found] are the state of the loop *)
Section Uniq.
  Context {T U : Type} (eq_dec : forall a b : U, {a = b} + {a <> b}) (fn : T -> U).
  (** uniq.go:7-14 *)
  Fixpoint uniq_loop (vals : list T) (found : list U) (res : list T) : list T :=
    match vals with
    | [] => res
    | v :: vals' =>
        let u := fn v in
        if contains eq_dec u found then uniq_loop vals' found res
        else uniq_loop vals' (add eq_dec u found) (res ++ [v])
    end.
  (** uniq.go:3-17 *)
  Definition uniq_by (vals : list T) : list T := uniq_loop vals new_set [].
End Uniq.

(** ** lib/stack.go: the top is the last element of the slice; [None] is nil.
    Simplification: slices are values (the code calls NewStack only with separate
    arguments, so no other slice shares the array). *)
Section Stack.
  Context {T : Type}.
  (** stack.go:11-36: the methods *)
  Inductive stack_op := SPush (v : option T) | SPop | STop | SSize.
  (** stack.go:11-36: the methods *)
  Inductive stack_out := OutVal (v : option T) | OutSize (n : nat) | OutNone.

  (** stack.go:7-9 *)
  Definition new_stack (vals : list (option T)) : list (option T) := vals.
  (** stack.go:11-13 *)
  Definition stack_push (v : option T) (vals : list (option T)) : list (option T) := vals ++ [v].
  (** [s.vals[len(s.vals)-1]] under [len(s.vals) > 0] *)
  Definition last_val (vals : list (option T)) : option T := nth (length vals - 1) vals None.
  (** stack.go:15-24 *)
  Definition stack_pop (vals : list (option T)) : option T * list (option T) :=
    if Nat.eqb (length vals) 0 then (None, vals)
    else (last_val vals, firstn (length vals - 1) vals).
  (** stack.go:26-32 *)
  Definition stack_top (vals : list (option T)) : option T :=
    if Nat.eqb (length vals) 0 then None else last_val vals.
  (** stack.go:34-36 *)
  Definition stack_size (vals : list (option T)) : nat := length vals.

  (** stack.go:11-36: the methods *)
  Definition stack_step (o : stack_op) (vals : list (option T)) : stack_out * list (option T) :=
    match o with
    | SPush v => (OutNone, stack_push v vals)
    | SPop => let '(v, vals') := stack_pop vals in (OutVal v, vals')
    | STop => (OutVal (stack_top vals), vals)
    | SSize => (OutSize (stack_size vals), vals)
    end.
  (** calls one after another; no lines in /repo of its own *)
  Fixpoint stack_run (ops : list stack_op) (vals : list (option T)) : list stack_out * list (option T) :=
    match ops with
    | [] => ([], vals)
    | o :: ops' =>
        let '(out, vals') := stack_step o vals in
        let '(outs, vals'') := stack_run ops' vals' in
        (out :: outs, vals'')
    end.
End Stack.

(** ** lib/time.go:13-20.  A time is its number of nanoseconds (of any epoch); dates
    beyond Go's range are outside the model.  [fuel] bounds the rounds, [None] is
    "not finished". *)
Fixpoint generate_time_ranges (fuel : nat) (t end_ interval : Z) : option (list Z) :=
  if Z.ltb t end_ then
    match fuel with
    | 0 => None
    | S fuel' =>
        match generate_time_ranges fuel' (t + interval) end_ interval with
        | Some res => Some (t :: res)
        | None => None
        end
    end
  else Some [].

(** ** lib/join.go:5-11 *)
Definition lib_join {T} (vals : list T) (sep : gostring) (f : T -> gostring) : gostring :=
  join sep (map f vals).
