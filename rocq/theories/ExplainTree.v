(** Plan trees as the explain parsers build them: nodes are allocated one after
    the other and linked through pointers, a stack holds pointers to the nodes
    still open (database/mysql/mservice/explainer.go:33-70,
    database/postgres/pservice/explain_analyze_tree_builder.go:28-59). *)
From Coq Require Import String List NArith ZArith QArith Bool Lia Arith.
From Verif Require Import Base Dec.
Import ListNotations.
Local Open Scope nat_scope.

(** A finished plan tree: what following the pointers from a node shows. *)
(** mmodel/explain_analyze_tree_node.go:8-11, pmodel/explain_analyze_tree_node.go:9-13 *)
Inductive tree (A : Type) : Type := Node (a : A) (cs : list (tree A)).
Arguments Node {A} a cs.

(** a member of a node; no lines in /repo of its own *)
Definition t_val {A} (t : tree A) : A := match t with Node a _ => a end.
(** a member of a node; no lines in /repo of its own *)
Definition t_children {A} (t : tree A) : list (tree A) := match t with Node _ cs => cs end.

Section Heap.
  Context {A : Type}.
  (** A node in memory: its own data and the slice of pointers to its children. *)
  (** mmodel/explain_analyze_tree_node.go:8-11, pmodel/explain_analyze_tree_node.go:9-13 *)
  Record cell := { c_val : A; c_children : list nat }.
  (** Memory; a pointer is a position. *)
  (** memory; no lines in /repo *)
  Definition heap := list cell.

  (** [&Node{..., Children: nil}] *)
  (** explainer.go:48-51, explain_analyze_tree_builder.go:39-43 *)
  Definition alloc (h : heap) (v : A) : heap * nat :=
    (h ++ [{| c_val := v; c_children := [] |}], length h).
  (** [p.Children = append(p.Children, n)] *)
  (** explainer.go:53-54,60-61, explain_analyze_tree_builder.go:45-46,52-53 *)
  Fixpoint add_child (h : heap) (p n : nat) : heap :=
    match h, p with
    | [], _ => []
    | c :: h', 0 => {| c_val := c_val c; c_children := c_children c ++ [n] |} :: h'
    | c :: h', S p' => c :: add_child h' p' n
    end.
  (** reading through a pointer; no lines in /repo of its own *)
  Definition heap_val (h : heap) (p : nat) : option A := option_map c_val (nth_error h p).

  (** Following the pointers from [p]; [None] when deeper than [fuel]. *)
  (** what the views make of the pointers: mmodel/explain_analyze_tree_node.go, pmodel/explain_analyze_tree_node.go; no lines in /repo of its own *)
  Fixpoint read (fuel : nat) (h : heap) (p : nat) : option (tree A) :=
    match fuel with
    | 0 => None
    | S f =>
        match nth_error h p with
        | None => None
        | Some c =>
            let children := fix go (l : list nat) : option (list (tree A)) :=
              match l with
              | [] => Some []
              | q :: l' => match read f h q, go l' with
                           | Some t, Some ts => Some (t :: ts)
                           | _, _ => None
                           end
              end in
            option_map (Node (c_val c)) (children (c_children c))
        end
    end.
  (** The tree below a pointer: no path is longer than the number of nodes. *)
  (** what the views make of the pointers: mmodel/explain_analyze_tree_node.go, pmodel/explain_analyze_tree_node.go; no lines in /repo of its own *)
  Definition tree_at (h : heap) (p : nat) : outcome (tree A) :=
    match read (S (length h)) h p with Some t => Ok t | None => Panic end.
End Heap.
Arguments cell : clear implicits.
Arguments heap : clear implicits.

(** ** Numbers in explain lines *)

(** The finite double precision numbers end here: a decimal at or above it makes
    strconv.ParseFloat return ErrRange (it would round to infinity). *)
(** strconv; no lines in /repo *)
Definition float_limit : N := (2 ^ 1024 - 2 ^ 970)%N.

(** strconv; no lines in /repo *)
Fixpoint cut_dot (s : gostring) : gostring * option gostring :=
  match s with
  | [] => ([], None)
  | c :: s' => if N.eqb c 46 then ([], Some s')
               else let r := cut_dot s' in (c :: fst r, snd r)
  end.

(** strconv.ParseFloat(s, 64) for the strings the regular expressions let through
    (ASCII digits and dots, possibly none): at most one dot and at least one
    digit.  Simplification: the result is the decimal itself, not the nearest
    double. *)
Definition parse_float (s : gostring) : option Q :=
  let '(a, b) := cut_dot s in
  let frac := match b with Some b => b | None => [] end in
  let digits := a ++ frac in
  match digits with
  | [] => None
  | _ => if forallb is_digit digits then
           let m := digits_val 0 digits in
           let scale := (10 ^ N.of_nat (length frac))%N in
           if N.ltb m (float_limit * scale) then
             Some (Qmake (Z.of_N m) (N.succ_pos (scale - 1)))
           else None
         else None
  end.

(** null.Float / null.Int *)
(** gopkg.in/guregu/null; no lines in /repo *)
Definition null_float := option Q.
(** gopkg.in/guregu/null; no lines in /repo *)
Definition null_int := option Z.
(** gopkg.in/guregu/null; no lines in /repo *)
Definition float_or_zero (x : null_float) : Q := match x with Some q => q | None => 0%Q end.
(** gopkg.in/guregu/null; no lines in /repo *)
Definition int_or_zero (x : null_int) : Z := match x with Some z => z | None => 0%Z end.

(** [errors.Wrap(err, fmt.Sprintf("failed to parse analyze(%s): %s", x, line))];
    the text of the wrapped error is left out. *)
(** mmodel/explain_analyze_result_line.go and pmodel/explain_analyze_result_node.go: the same for every number read *)
Definition parse_failed {A} (x line : gostring) : outcome A :=
  Err (lit "failed to parse analyze(" ++ x ++ lit "): " ++ line).
(** mmodel/explain_analyze_result_line.go and pmodel/explain_analyze_result_node.go: the same for every number read *)
Definition float_of (x line : gostring) : outcome Q :=
  match parse_float x with Some q => Ok q | None => parse_failed x line end.
(** mmodel/explain_analyze_result_line.go and pmodel/explain_analyze_result_node.go: the same for every number read *)
Definition int_of (x shown line : gostring) : outcome Z :=
  match parse_int64 x with Some z => Ok z | None => parse_failed shown line end.

(** ** strings.Contains / Split()[0] / TrimSpace *)
Fixpoint starts_with (p s : gostring) : bool :=
  match p, s with
  | [], _ => true
  | _ :: _, [] => false
  | x :: p', y :: s' => N.eqb x y && starts_with p' s'
  end.
(** What precedes the first occurrence of [sep]: [strings.Split(s, sep)[0]] when
    [strings.Contains(s, sep)], [None] otherwise. *)
Fixpoint before (sep s : gostring) : option gostring :=
  if starts_with sep s then Some []
  else match s with
       | [] => None
       | c :: s' => option_map (cons c) (before sep s')
       end.
(** unicode.IsSpace *)
(** Go's standard library; no lines in /repo *)
Definition is_unicode_space (c : rune) : bool :=
  ((N.leb 9 c && N.leb c 13) || N.eqb c 32 || N.eqb c 133 || N.eqb c 160 || N.eqb c 5760
   || (N.leb 8192 c && N.leb c 8202) || N.eqb c 8232 || N.eqb c 8233 || N.eqb c 8239
   || N.eqb c 8287 || N.eqb c 12288)%bool.
(** Go's standard library; no lines in /repo *)
Fixpoint trim_left (s : gostring) : gostring :=
  match s with
  | [] => []
  | c :: s' => if is_unicode_space c then trim_left s' else s
  end.
(** Go's standard library; no lines in /repo *)
Definition trim_space (s : gostring) : gostring := rev (trim_left (rev (trim_left s))).
