(** SQL as the servers read it (as far as the examiner's statements need): a
    tokenizer with words, quoted identifiers (a doubled quote stands for a quote)
    and single-character symbols. [None] = unterminated quote. *)
From Coq Require Import String List NArith Bool.
From Verif Require Import Base IndexText Examiner SuggestCmd.
Import ListNotations.

Inductive token := TWord (s : gostring) | TIdent (s : gostring) | TSym (c : N).

Inductive lex_state :=
| LStart
| LWord (rev_acc : gostring)
| LQuote (rev_acc : gostring)       (* inside a quoted identifier *)
| LQuoteEnd (rev_acc : gostring).   (* just after a quote inside one *)

Definition flush (st : lex_state) : list token :=
  match st with
  | LStart => []
  | LWord a => [TWord (rev a)]
  | LQuote _ => []
  | LQuoteEnd a => [TIdent (rev a)]
  end.

(** One character outside quotes. *)
Definition lex_plain (q c : N) : list token * lex_state :=
  if N.eqb c q then ([], LQuote [])
  else if is_word c then ([], LWord [c])
  else if is_space c then ([], LStart)
  else ([TSym c], LStart).

Definition lex_step (q : N) (st : lex_state) (c : N) : list token * lex_state :=
  match st with
  | LStart => lex_plain q c
  | LWord a =>
      if is_word c then ([], LWord (c :: a))
      else let '(t, st') := lex_plain q c in (TWord (rev a) :: t, st')
  | LQuote a => if N.eqb c q then ([], LQuoteEnd a) else ([], LQuote (c :: a))
  | LQuoteEnd a =>
      if N.eqb c q then ([], LQuote (c :: a))
      else let '(t, st') := lex_plain q c in (TIdent (rev a) :: t, st')
  end.

Fixpoint lex_from (q : N) (st : lex_state) (s : gostring) : option (list token) :=
  match s with
  | [] => match st with LQuote _ => None | _ => Some (flush st) end
  | c :: s' =>
      let '(t, st') := lex_step q st c in
      match lex_from q st' s' with
      | Some ts => Some (t ++ ts)
      | None => None
      end
  end.
(** MySQL quotes identifiers with back quotes, PostgreSQL with double quotes. *)
Definition lex_mysql : gostring -> option (list token) := lex_from 96%N LStart.
Definition lex_pg : gostring -> option (list token) := lex_from 34%N LStart.

Definition comma_separated (l : list token) : list token :=
  match l with
  | [] => []
  | t :: l' => t :: flat_map (fun x => [TSym 44%N; x]) l'
  end.

(** The statements as they are meant. *)
Definition intended_mysql_create (name table : gostring) (cols : list gostring) : list token :=
  [TWord (lit "ALTER"); TWord (lit "TABLE"); TIdent table; TWord (lit "ADD"); TWord (lit "INDEX"); TIdent name;
   TSym 40%N] ++ comma_separated (map TIdent cols) ++ [TSym 41%N].
Definition intended_mysql_drop (name table : gostring) : list token :=
  [TWord (lit "ALTER"); TWord (lit "TABLE"); TIdent table; TWord (lit "DROP"); TWord (lit "INDEX"); TIdent name].
Definition intended_pg_create (name table : gostring) (cols : list gostring) : list token :=
  [TWord (lit "CREATE"); TWord (lit "INDEX"); TIdent name; TWord (lit "ON"); TIdent table; TSym 40%N]
  ++ comma_separated (map TIdent cols) ++ [TSym 41%N].
Definition intended_pg_drop (name : gostring) : list token :=
  [TWord (lit "DROP"); TWord (lit "INDEX"); TIdent name].

(** The examination steps of a command. *)
Definition examination (tr : list cmd_event) : list event :=
  flat_map (fun e => match e with CeExamine x => [x] | _ => [] end) tr.
(** Steps that reach the database. *)
Definition touches_db (e : cmd_event) : Prop :=
  match e with CeHtml => False | _ => True end.
