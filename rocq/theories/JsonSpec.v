(** A reader of literals of JavaScript, after ECMA-262 and ECMA-404: null, true, false,
    numbers, strings with escapes, arrays and objects.  It accepts blanks and line ends
    between tokens.  How a number is read is left open. *)
From Coq Require Import String List NArith ZArith QArith Bool.
From Verif Require Import Base Json.
Import ListNotations.
Local Open Scope nat_scope.

Definition num_char (c : N) : bool :=
  ((N.leb 48 c && N.leb c 57) || N.eqb c 43 || N.eqb c 45 || N.eqb c 46 || N.eqb c 69 || N.eqb c 101)%bool.
Definition hex_value (c : N) : option N :=
  if (N.leb 48 c && N.leb c 57)%bool then Some (c - 48)%N
  else if (N.leb 97 c && N.leb c 102)%bool then Some (c - 87)%N
  else if (N.leb 65 c && N.leb c 70)%bool then Some (c - 55)%N
  else None.
(** The characters up to the closing quote.  [None] for an unfinished string, a line end
    inside or an unknown escape. *)
Fixpoint read_string (s : gostring) : option (gostring * gostring) :=
  match s with
  | [] => None
  | c :: s' =>
      if N.eqb c 34 then Some ([], s')
      else if N.eqb c 92 then
        match s' with
        | [] => None
        | e :: s2 =>
            let one x := match read_string s2 with Some (t, r) => Some (x :: t, r) | None => None end in
            if (N.eqb e 34 || N.eqb e 92 || N.eqb e 47)%bool then one e
            else if N.eqb e 110 then one 10%N
            else if N.eqb e 114 then one 13%N
            else if N.eqb e 116 then one 9%N
            else if N.eqb e 98 then one 8%N
            else if N.eqb e 102 then one 12%N
            else if N.eqb e 117 then
              match s2 with
              | a :: b :: d :: f :: s3 =>
                  match hex_value a, hex_value b, hex_value d, hex_value f, read_string s3 with
                  | Some a', Some b', Some d', Some f', Some (t, r) => Some ((((a' * 16 + b') * 16 + d') * 16 + f')%N :: t, r)
                  | _, _, _, _, _ => None
                  end
              | _ => None
              end
            else None
        end
      else if (N.ltb c 32 || N.eqb c 8232 || N.eqb c 8233)%bool then None
      else match read_string s' with Some (t, r) => Some (c :: t, r) | None => None end
  end.
Fixpoint skip_blanks (s : gostring) : gostring :=
  match s with
  | c :: s' => if (N.eqb c 32 || N.eqb c 9 || N.eqb c 10 || N.eqb c 13)%bool then skip_blanks s' else s
  | [] => []
  end.
Fixpoint strip (p s : gostring) : option gostring :=
  match p, s with
  | [], _ => Some s
  | x :: p', y :: s' => if N.eqb x y then strip p' s' else None
  | _ :: _, [] => None
  end.
Fixpoint read_num (s : gostring) : gostring * gostring :=
  match s with
  | c :: s' => if num_char c then let '(a, b) := read_num s' in (c :: a, b) else ([], s)
  | [] => ([], [])
  end.

Section Reader.
  Variable num_value : gostring -> option Q.
  (** [n] bounds the depth of the calls. *)
  Fixpoint read_value (n : nat) (s : gostring) : option (jv * gostring) :=
    match n with
    | 0 => None
    | S n' =>
        match skip_blanks s with
        | [] => None
        | c :: s' =>
            if N.eqb c 34 then match read_string s' with Some (t, r) => Some (JStr t, r) | None => None end
            else if N.eqb c 91 then
              match skip_blanks s' with
              | 93%N :: r => Some (JArr [], r)
              | _ => match read_items n' s' with Some (l, r) => Some (JArr l, r) | None => None end
              end
            else if N.eqb c 123 then
              match skip_blanks s' with
              | 125%N :: r => Some (JObj [], r)
              | _ => match read_members n' s' with Some (l, r) => Some (JObj l, r) | None => None end
              end
            else if num_char c then
              let '(t, r) := read_num (c :: s') in
              match num_value t with Some q => Some (JNum q, r) | None => None end
            else match strip (lit "null") (c :: s') with
                 | Some r => Some (JNull, r)
                 | None => match strip (lit "true") (c :: s') with
                           | Some r => Some (JBool true, r)
                           | None => match strip (lit "false") (c :: s') with
                                     | Some r => Some (JBool false, r)
                                     | None => None
                                     end
                           end
                 end
        end
    end
  with read_items (n : nat) (s : gostring) : option (list jv * gostring) :=
    match n with
    | 0 => None
    | S n' =>
        match read_value n' s with
        | None => None
        | Some (v, r) =>
            match skip_blanks r with
            | 93%N :: r' => Some ([v], r')
            | 44%N :: r' => match read_items n' r' with Some (l, r2) => Some (v :: l, r2) | None => None end
            | _ => None
            end
        end
    end
  with read_members (n : nat) (s : gostring) : option (list (gostring * jv) * gostring) :=
    match n with
    | 0 => None
    | S n' =>
        match skip_blanks s with
        | 34%N :: s1 =>
            match read_string s1 with
            | None => None
            | Some (k, s2) =>
                match skip_blanks s2 with
                | 58%N :: s3 =>
                    match read_value n' s3 with
                    | None => None
                    | Some (v, r) =>
                        match skip_blanks r with
                        | 125%N :: r' => Some ([(k, v)], r')
                        | 44%N :: r' => match read_members n' r' with Some (l, r2) => Some ((k, v) :: l, r2) | None => None end
                        | _ => None
                        end
                    end
                | _ => None
                end
            end
        | _ => None
        end
    end.
  (** The value assigned to window.grParam by a script of this one statement. *)
  Definition script_value (s : gostring) : option jv :=
    match strip (lit "window.grParam") (skip_blanks s) with
    | None => None
    | Some r =>
        match skip_blanks r with
        | 61%N :: r' => match read_value (S (2 * length r')) r' with
                        | Some (v, r2) => match skip_blanks r2 with [] => Some v | _ => None end
                        | None => None
                        end
        | _ => None
        end
    end.
End Reader.

(** ** What is asked of the numbers *)
(** The text of [q] is a text of digits, signs, points and exponents that is read as
    [q]: true of every double written with strconv and read by JavaScript. *)
Definition number_fine (num_text : Q -> gostring) (num_value : gostring -> option Q) (q : Q) : Prop :=
  num_text q <> [] /\ Forall (fun c => num_char c = true) (num_text q) /\ num_value (num_text q) = Some q.
Fixpoint numbers (P : Q -> Prop) (v : jv) : Prop :=
  match v with
  | JNum q => P q
  | JArr l => (fix go l := match l with [] => True | x :: l' => numbers P x /\ go l' end) l
  | JObj l => (fix go l := match l with [] => True | x :: l' => numbers P (snd x) /\ go l' end) l
  | _ => True
  end.
Definition occurs (p s : gostring) : Prop := exists a b, s = a ++ p ++ b.
