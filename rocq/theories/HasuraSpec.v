(** How PostgreSQL reads a query text, as far as names in it matter, without reference
    to the code. *)
From Coq Require Import String List NArith Bool Lia Arith.
From Verif Require Import Base Hasura.
Import ListNotations.

(** A text is code and literals in single quotes, a doubled quote standing for one.
    [None]: a literal is not closed. *)
Inductive piece := Code (c : rune) | Literal (s : gostring).
Fixpoint read_sql (open : option gostring) (s : gostring) : option (list piece) :=
  match s with
  | [] => match open with None => Some [] | Some _ => None end
  | c :: s' =>
      match open with
      | None => if N.eqb c 39 then read_sql (Some []) s' else option_map (cons (Code c)) (read_sql None s')
      | Some acc =>
          if N.eqb c 39 then
            match s' with
            | c' :: s'' => if N.eqb c' 39 then read_sql (Some (acc ++ [39%N])) s''
                           else option_map (cons (Literal acc)) (read_sql None s')
            | [] => option_map (cons (Literal acc)) (read_sql None s')
            end
          else read_sql (Some (acc ++ [c])) s'
      end
  end.
(** That reading is PostgreSQL's: there is no quoted identifier, dollar quote, comment
    or backslash, and no literal with a prefix as in [E'..']. *)
Definition word_char (c : rune) : bool :=
  (((48 <=? c) && (c <=? 57)) || ((65 <=? c) && (c <=? 90)) || ((97 <=? c) && (c <=? 122)) || (c =? 95))%N%bool.
Definition special (c : rune) : bool := existsb (N.eqb c) (lit """$\-/").
Fixpoint plain (after_word : bool) (l : list piece) : bool :=
  match l with
  | [] => true
  | Code c :: l' => negb (special c) && plain (word_char c) l'
  | Literal _ :: l' => negb after_word && plain false l'
  end.
Fixpoint listed (l : list gostring) : list piece :=
  match l with
  | [] => []
  | [x] => [Literal x]
  | x :: l' => Literal x :: Code 44 :: listed l'
  end.
(** The query is the template with a literal for the first mark and literals for the
    second *)
Definition filled (template schema : gostring) (tables : list gostring) (q : gostring) : Prop :=
  exists a b c, ~ In (Code 63) (a ++ b ++ c) /\
    read_sql None template = Some (a ++ [Code 63] ++ b ++ [Code 63] ++ c) /\
    read_sql None q = Some (a ++ [Literal schema] ++ b ++ listed tables ++ c) /\
    plain false (a ++ [Literal schema] ++ b ++ listed tables ++ c) = true.
Definition word (s : gostring) : Prop := s <> [] /\ forall c, In c s -> word_char c = true.

(** ** Answers *)
(** A row of columns: table, name and whether it is in the primary key *)
Inductive column_row : list gostring -> gostring * gostring * bool -> Prop :=
| col_pk : forall t c more, column_row (t :: c :: lit "t" :: more) (t, c, true)
| col_other : forall t c x more, x <> lit "t" -> column_row (t :: c :: x :: more) (t, c, false).
(** A row of indexes: table and text of an array *)
Definition index_row (scan : gostring -> outcome (list gostring)) (r : list gostring) (t : gostring) (cols : list gostring) : Prop :=
  exists a more, r = t :: a :: more /\ scan a = Ok cols.
