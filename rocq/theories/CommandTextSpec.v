(** What the offered command line has to mean: a reader of shell words written after the
    POSIX rules (2.2 Quoting, 2.3 Token Recognition), and the parts of a file name. *)
From Coq Require Import String List NArith Bool.
From Verif Require Import Base.
Import ListNotations.

(** [file_parts f dir stem ext]: f is dir stem ext, where dir is empty or ends in a slash,
    stem and ext have no slash, and ext is the last dot of the name with what follows, or
    nothing when there is no dot. *)
Definition file_parts (f dir stem ext : gostring) : Prop :=
  f = dir ++ stem ++ ext /\
  (dir = [] \/ exists d, dir = d ++ [47%N]) /\
  ~ In 47%N stem /\ ~ In 47%N ext /\
  ((ext = [] /\ ~ In 46%N stem) \/ exists e, ext = 46%N :: e /\ ~ In 46%N e).

(** Characters that stand for themselves outside quotes, wherever they are in a word of a
    command's arguments: letters, digits, underscore, hyphen and dot. *)
Definition plain (c : N) : bool :=
  ((N.leb 48 c && N.leb c 57) || (N.leb 65 c && N.leb c 90) || (N.leb 97 c && N.leb c 122)
   || N.eqb c 95 || N.eqb c 45 || N.eqb c 46)%bool.

(** The reader stops (None) at every construct it does not know: other expansions,
    operators, comments, globs, a line end that is not a continuation, an unfinished quote.
    So [Some] means that a shell passes exactly these words.  [env] gives the values of the
    variables used as ${NAME} inside double quotes. *)
Inductive sh_state :=
| Between | BetweenEsc
| InWord (w : gostring) | InWordEsc (w : gostring)
| InSingle (w : gostring)
| InQuote (w : gostring) | InQuoteEsc (w : gostring)
| InDollar (w : gostring) | InBrace (w name : gostring).

Section Reader.
Variable env : gostring -> gostring.
Fixpoint sh_read (st : sh_state) (s : gostring) : option (list gostring) :=
  match s with
  | [] => match st with Between => Some [] | InWord w => Some [w] | _ => None end
  | c :: s' =>
      match st with
      | Between =>
          if (N.eqb c 32 || N.eqb c 9)%bool then sh_read Between s'
          else if N.eqb c 92 then sh_read BetweenEsc s'
          else if N.eqb c 34 then sh_read (InQuote []) s'
          else if N.eqb c 39 then sh_read (InSingle []) s'
          else if plain c then sh_read (InWord [c]) s' else None
      | BetweenEsc => if N.eqb c 10 then sh_read Between s' else sh_read (InWord [c]) s'
      | InWord w =>
          if (N.eqb c 32 || N.eqb c 9)%bool
          then match sh_read Between s' with Some ws => Some (w :: ws) | None => None end
          else if N.eqb c 92 then sh_read (InWordEsc w) s'
          else if N.eqb c 34 then sh_read (InQuote w) s'
          else if N.eqb c 39 then sh_read (InSingle w) s'
          else if plain c then sh_read (InWord (w ++ [c])) s' else None
      | InWordEsc w => if N.eqb c 10 then sh_read (InWord w) s' else sh_read (InWord (w ++ [c])) s'
      | InSingle w => if N.eqb c 39 then sh_read (InWord w) s' else sh_read (InSingle (w ++ [c])) s'
      | InQuote w =>
          if N.eqb c 34 then sh_read (InWord w) s'
          else if N.eqb c 92 then sh_read (InQuoteEsc w) s'
          else if N.eqb c 36 then sh_read (InDollar w) s'
          else if N.eqb c 96 then None
          else sh_read (InQuote (w ++ [c])) s'
      | InQuoteEsc w =>
          if N.eqb c 10 then sh_read (InQuote w) s'
          else if (N.eqb c 34 || N.eqb c 36 || N.eqb c 96 || N.eqb c 92)%bool then sh_read (InQuote (w ++ [c])) s'
          else sh_read (InQuote (w ++ [92%N; c])) s'
      | InDollar w => if N.eqb c 123 then sh_read (InBrace w []) s' else None
      | InBrace w name =>
          if N.eqb c 125 then sh_read (InQuote (w ++ env name)) s'
          else if (plain c && negb (N.eqb c 45) && negb (N.eqb c 46))%bool then sh_read (InBrace w (name ++ [c])) s'
          else None
      end
  end.
Definition shell_words (s : gostring) : option (list gostring) := sh_read Between s.
End Reader.

(** Text that means itself inside double quotes. *)
Definition quote_safe (s : gostring) : Prop := Forall (fun c => c <> 34%N /\ c <> 36%N /\ c <> 96%N /\ c <> 92%N) s.

(** The tokens of an SQL text of names and punctuation: blanks separate, each of ( ) , ;
    is a token. *)
Definition flush (w : gostring) (l : list gostring) : list gostring := match w with [] => l | _ => w :: l end.
Fixpoint sql_read (w s : gostring) : list gostring :=
  match s with
  | [] => flush w []
  | c :: s' =>
      if N.eqb c 32 then flush w (sql_read [] s')
      else if (N.eqb c 40 || N.eqb c 41 || N.eqb c 44 || N.eqb c 59)%bool then flush w ([c] :: sql_read [] s')
      else sql_read (w ++ [c]) s'
  end.
Definition sql_tokens (s : gostring) : list gostring := sql_read [] s.
(** The tokens of a column list. *)
Fixpoint comma_list (l : list gostring) : list gostring :=
  match l with [] => [] | [c] => [c] | c :: l' => c :: lit "," :: comma_list l' end.
