(** How a browser reads an HTML text, and what a tooltip should show. *)
From Coq Require Import String List NArith ZArith QArith Bool Lia Arith.
From Verif Require Import Base.
Import ListNotations.
Local Open Scope nat_scope.

(** Characters, tags (what stands between the brackets; also comments) and character
    references.  Simplification: a tag ends at the first closing bracket, a reference at
    the first character that is no letter, digit or hash sign. *)
Inductive token := Chr (c : rune) | Tag (text : gostring) | Ref (name : gostring).
Inductive reading := Data | InTag (text : gostring) | InRef (name : gostring).
Definition letter (c : rune) : bool := (N.leb 65 c && N.leb c 90 || N.leb 97 c && N.leb c 122)%N.
Definition ref_char (c : rune) : bool := (letter c || N.leb 48 c && N.leb c 57 || N.eqb c 35)%N.
(** After an opening bracket a letter, slash, exclamation or question mark begins a tag;
    after an ampersand a letter, digit or hash sign begins a reference. *)
Definition begins (f : rune -> bool) (s : gostring) : bool := match s with c :: _ => f c | [] => false end.
Definition tag_char (c : rune) : bool := (letter c || N.eqb c 47 || N.eqb c 33 || N.eqb c 63)%N.
Fixpoint html (st : reading) (s : gostring) : list token :=
  match s with
  | [] => match st with InRef name => [Ref name] | _ => [] end
  | c :: s' =>
      let data :=
        if N.eqb c 60 && begins tag_char s' then html (InTag []) s'
        else if N.eqb c 38 && begins ref_char s' then html (InRef []) s'
        else Chr c :: html Data s' in
      match st with
      | Data => data
      | InTag t => if N.eqb c 62 then Tag t :: html Data s' else html (InTag (t ++ [c])) s'
      | InRef r => if ref_char c then html (InRef (r ++ [c])) s'
                   else if N.eqb c 59 then Ref r :: html Data s' else Ref r :: data
      end
  end.
(** What is shown; of the references only that of the space is known here. *)
Definition shown (t : token) : gostring :=
  match t with Chr c => [c] | Tag _ => [] | Ref r => if seqb r (lit "nbsp") then [160%N] else lit "&" ++ r ++ lit ";" end.
Definition visible (s : gostring) : gostring := flat_map shown (html Data s).
Definition tags (s : gostring) : list gostring := flat_map (fun t => match t with Tag t => [t] | _ => [] end) (html Data s).

(** A text without markup *)
Fixpoint plain (s : gostring) : bool :=
  match s with
  | [] => true
  | c :: s' => negb (N.eqb c 60 && begins tag_char s') && negb (N.eqb c 38 && begins ref_char s') && plain s'
  end.

(** ** Tooltips of the plans *)
(** White space and line ends of JavaScript *)
Definition white (c : rune) : Prop :=
  In c [9; 10; 11; 12; 13; 32; 160; 5760; 8192; 8193; 8194; 8195; 8196; 8197; 8198; 8199; 8200; 8201; 8202;
        8232; 8233; 8239; 8287; 12288; 65279]%N.
Definition trimmed (core text : gostring) : Prop :=
  exists a b, text = a ++ core ++ b /\ Forall white a /\ Forall white b /\
    (forall c s, core = c :: s -> ~ white c) /\ (forall c s, core = s ++ [c] -> ~ white c).
(** The text without the white space around it, of a long one the first 50 characters *)
Definition heading (text h : gostring) : Prop :=
  exists core, trimmed core text /\
    ((length core <= 50 /\ h = core) \/ exists a b, core = a ++ b /\ length a = 50 /\ b <> [] /\ h = a ++ lit "...").
Definition value {A} (f : A -> gostring) (missing : string) (x : option A) : gostring :=
  match x with Some a => f a | None => lit missing end.
Definition table_name (t : gostring) : gostring := match t with [] => lit "-" | _ => t end.
