(** How the drivers read their connection texts. *)
From Coq Require Import String List NArith Bool Lia Arith.
From Verif Require Import Base ConnText.
Import ListNotations.

(** ** lib/pq v1.10.7 parseOpts: [key = value] separated by white space, values bare or
    in single quotes, with backslash escapes; a later setting of a key wins *)
(** unicode.IsSpace *)
Definition uspace (c : rune) : bool :=
  ((9 <=? c) && (c <=? 13) || (c =? 32) || (c =? 133) || (c =? 160) || (c =? 5760) ||
   ((8192 <=? c) && (c <=? 8202)) || (c =? 8232) || (c =? 8233) || (c =? 8239) || (c =? 8287) || (c =? 12288))%N%bool.
Inductive reading :=
| Start                                (* before a key *)
| Key (k : gostring)
| After_key (k : gostring)             (* the equal sign is missing *)
| After_eq (k : gostring)
| Bare (k v : gostring)
| Bare_escape (k v : gostring)
| Quoted (k v : gostring)
| Quoted_escape (k v : gostring).
(** One character: the new state and the setting that is finished, if any *)
Definition read_char (st : reading) (c : rune) : option (reading * list (gostring * gostring)) :=
  match st with
  | Start => if uspace c then Some (Start, []) else if N.eqb c 61 then Some (After_eq [], []) else Some (Key [c], [])
  | Key k => if N.eqb c 61 then Some (After_eq k, []) else if uspace c then Some (After_key k, []) else Some (Key (k ++ [c]), [])
  | After_key k => if N.eqb c 61 then Some (After_eq k, []) else if uspace c then Some (After_key k, []) else None
  | After_eq k => if uspace c then Some (After_eq k, []) else if N.eqb c 39 then Some (Quoted k [], [])
                  else if N.eqb c 92 then Some (Bare_escape k [], []) else Some (Bare k [c], [])
  | Bare k v => if uspace c then Some (Start, [(k, v)]) else if N.eqb c 92 then Some (Bare_escape k v, []) else Some (Bare k (v ++ [c]), [])
  | Bare_escape k v => Some (Bare k (v ++ [c]), [])
  | Quoted k v => if N.eqb c 39 then Some (Start, [(k, v)]) else if N.eqb c 92 then Some (Quoted_escape k v, []) else Some (Quoted k (v ++ [c]), [])
  | Quoted_escape k v => Some (Quoted k (v ++ [c]), [])
  end.
Fixpoint read_text (st : reading) (s : gostring) : option (reading * list (gostring * gostring)) :=
  match s with
  | [] => Some (st, [])
  | c :: s' =>
      match read_char st c with
      | None => None
      | Some (st', l) => match read_text st' s' with None => None | Some (st'', l') => Some (st'', l ++ l') end
      end
  end.
Definition read_end (st : reading) : option (list (gostring * gostring)) :=
  match st with
  | Start => Some []
  | Bare k v => Some [(k, v)]
  | After_eq k => Some [(k, [])]
  | _ => None
  end.
Definition settings (s : gostring) : option (list (gostring * gostring)) :=
  match read_text Start s with
  | None => None
  | Some (st, l) => match read_end st with None => None | Some l' => Some (l ++ l') end
  end.
(** the value in force *)
Fixpoint setting (l : list (gostring * gostring)) (k : gostring) : option gostring :=
  match l with
  | [] => None
  | (k', v) :: l' => match setting l' k with Some v' => Some v' | None => if seqb k k' then Some v else None end
  end.
(** Text of settings that does not end just after an equal sign *)
Definition complete (p : gostring) (l : list (gostring * gostring)) : Prop :=
  settings p = Some l /\ match read_text Start p with Some (After_eq _, _) => False | _ => True end.
Definition set_fields (c : pg_config) : list (gostring * gostring) :=
  filter (fun kv => match snd kv with [] => false | _ => true end)
    [(lit "user", pg_user c); (lit "password", pg_password c); (lit "host", pg_host c); (lit "port", pg_port c); (lit "dbname", pg_dbname c)].
(** no quote and no backslash *)
Definition unescaped (v : gostring) : Prop := ~ In 39%N v /\ ~ In 92%N v.

(** ** go-sql-driver/mysql v1.6.0 ParseDSN, before defaults and parsing of parameters:
    [user[:password]@][net[(addr)]]/dbname[?params] with the last slash, the last at
    sign before it, the first colon, opening bracket and question mark deciding *)
Inductive user_part : gostring -> gostring -> gostring -> Prop :=
| user_only : forall u, ~ In 58%N u -> user_part u u []
| user_password : forall u p, ~ In 58%N u -> user_part (u ++ lit ":" ++ p) u p.
Inductive net_part : gostring -> gostring -> gostring -> Prop :=
| net_only : forall n, ~ In 40%N n -> net_part n n []
| net_addr : forall n a, ~ In 40%N n -> net_part (n ++ lit "(" ++ a ++ lit ")") n a.
Inductive left_part : gostring -> gostring -> gostring -> gostring -> gostring -> Prop :=
| left_user : forall up np u p n a, ~ In 64%N np -> user_part up u p -> net_part np n a -> left_part (up ++ lit "@" ++ np) u p n a
| left_net : forall np n a, ~ In 64%N np -> net_part np n a -> left_part np [] [] n a.
Inductive right_part : gostring -> gostring -> gostring -> Prop :=
| db_only : forall d, ~ In 63%N d -> right_part d d []
| db_params : forall d p, ~ In 63%N d -> right_part (d ++ lit "?" ++ p) d p.
Inductive dsn_means : gostring -> my_config -> Prop :=
| dsn : forall l r c, ~ In 47%N r -> left_part l (my_user c) (my_password c) (my_net c) (my_addr c) ->
    right_part r (my_dbname c) (my_param_text c) -> dsn_means (l ++ lit "/" ++ r) c.
