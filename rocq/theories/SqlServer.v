(** The database server as far as the metadata queries need it: reading the text of a
    SELECT and evaluating it over given relations.  This restates SQL, it is not part of
    the repository; the catalogs are in Catalog.v.
    None of the definitions in this file has lines in /repo of its own. *)
From Coq Require Import String List NArith ZArith Bool Lia Arith Permutation.
From Verif Require Import Base Dec IndexBuild.
Import ListNotations.

(** * Reading SQL *)
Inductive tok := TWord (w : gostring) | TNum (z : Z) | TStr (s : gostring) | TMark (n : N) | TSym (c : rune).
(** a word, a number or a numbered mark *)
Definition classify (w : gostring) : tok :=
  match w with
  | c :: d => if N.eqb c 36 then TMark (digits_val 0 d)
              else if forallb is_digit w then TNum (Z.of_N (digits_val 0 w)) else TWord w
  | [] => TWord []
  end.
Definition emit (w : gostring) : list tok := match w with [] => [] | _ => [classify w] end.
(** [m]: number of the next question mark; [w]: the word being read; [str]: the text
    between quotes being read.  An open quote at the end makes no sense of the text. *)
Fixpoint lex (m : N) (w : gostring) (str : option gostring) (s : gostring) : list tok :=
  match s with
  | [] => match str with None => emit w | Some _ => [TSym 39] end
  | c :: s' =>
      match str with
      | Some acc => if N.eqb c 39 then TStr acc :: lex m [] None s' else lex m [] (Some (acc ++ [c])) s'
      | None =>
          if is_word c || N.eqb c 36 then lex m (w ++ [c]) None s'
          else emit w ++
               (if is_space c then lex m [] None s'
                else if N.eqb c 63 then TMark m :: lex (m + 1) [] None s'
                else if N.eqb c 39 then lex m [] (Some []) s'
                else TSym c :: lex m [] None s')
      end
  end.

Inductive expr :=
| EText (s : gostring) | EInt (z : Z) | EBool (b : bool) | EArg (n : N)
| ECol (t c : gostring) | EBare (c : gostring)
| ECoalesce (a b : expr)
| EIndexDefs (id keys : expr)     (* the texts of the parts of an index, in order *)
| EEq (a b : expr) | EGe (a b : expr) | EAny (a b : expr) | EIn (a : expr) (l : list expr) | EAnd (a b : expr).
Record table_ref := mk_tr { tr_name : gostring; tr_alias : gostring }.
Record query := mk_q {
  q_items : list (expr * gostring);
  q_from : table_ref;
  q_joins : list (bool * table_ref * expr);     (* true: LEFT OUTER JOIN *)
  q_where : expr;
  q_order : list expr }.

Definition lower (c : rune) : rune := if is_upper c then (c + 32)%N else c.
Definition low (w : gostring) : gostring := map lower w.
Definition kw (k w : gostring) : bool := seqb (low w) k.
Definition keywords : list gostring :=
  map of_string ["select"; "from"; "where"; "order"; "by"; "as"; "inner"; "left"; "outer"; "join"; "on"; "and"; "in"; "any"; "array"]%string.
Definition is_kw (w : gostring) : bool := existsb (seqb (low w)) keywords.

Notation "'letp' ( x , r ) <- e ; f" := (match e with Some (x, r) => f | None => None end)
  (at level 61, x name, r name, e at level 55, f at level 61, right associativity).

Definition same_tok (a b : tok) : bool :=
  match a, b with
  | TWord v, TWord w => kw v w
  | TNum x, TNum y => Z.eqb x y
  | TSym c, TSym d => N.eqb c d
  | _, _ => false
  end.
(** the given words, in lower case *)
Fixpoint expect (l : list tok) (toks : list tok) : option (unit * list tok) :=
  match l, toks with
  | [], _ => Some (tt, toks)
  | a :: l', b :: toks' => if same_tok a b then expect l' toks' else None
  | _, _ => None
  end.
Definition atom (toks : list tok) : option (expr * list tok) :=
  match toks with
  | TMark n :: r => Some (EArg n, r)
  | TStr s :: r => Some (EText s, r)
  | TNum z :: r => Some (EInt z, r)
  | TWord w :: r =>
      if is_kw w then None
      else match r with
           | TSym 46%N :: TWord c :: r' => Some (ECol (low w) (low c), r')
           | _ => if kw (lit "true") w then Some (EBool true, r)
                  else if kw (lit "false") w then Some (EBool false, r)
                  else Some (EBare (low w), r)
           end
  | _ => None
  end.
Definition w_ (s : string) : tok := TWord (of_string s).
Definition lpar : tok := TSym 40. Definition rpar : tok := TSym 41.
Definition comma : tok := TSym 44.
(** ARRAY(SELECT PG_GET_INDEXDEF(id, k + 1, TRUE) FROM GENERATE_SUBSCRIPTS(keys, 1) AS k ORDER BY k):
    the subscripts of pg_index.indkey start at 0 *)
Definition index_defs (toks : list tok) : option (expr * list tok) :=
  letp (_u, r) <- expect [w_ "select"; w_ "pg_get_indexdef"; lpar] toks;
  letp (a, r) <- atom r;
  letp (_u, r) <- expect [comma; w_ "k"; TSym 43; TNum 1; comma; w_ "true"; rpar; w_ "from"; w_ "generate_subscripts"; lpar] r;
  letp (b, r) <- atom r;
  letp (_u, r) <- expect [comma; TNum 1; rpar; w_ "as"; w_ "k"; w_ "order"; w_ "by"; w_ "k"; rpar] r;
  Some (EIndexDefs a b, r).
Definition prim (toks : list tok) : option (expr * list tok) :=
  match toks with
  | TWord w :: TSym 40%N :: r =>
      if kw (lit "coalesce") w then
        letp (a, r) <- atom r; letp (_u, r) <- expect [comma] r;
        letp (b, r) <- atom r; letp (_u, r) <- expect [rpar] r;
        Some (ECoalesce a b, r)
      else if kw (lit "array") w then index_defs r
      else None
  | _ => atom toks
  end.
(** the list behind IN, up to the closing parenthesis *)
Fixpoint in_list (toks : list tok) : option (list expr * list tok) :=
  match toks with
  | TMark n :: TSym 41%N :: r => Some ([EArg n], r)
  | TStr s :: TSym 41%N :: r => Some ([EText s], r)
  | TMark n :: TSym 44%N :: r => letp (l, r') <- in_list r; Some (EArg n :: l, r')
  | TStr s :: TSym 44%N :: r => letp (l, r') <- in_list r; Some (EText s :: l, r')
  | _ => None
  end.
Definition comparison_expr (toks : list tok) : option (expr * list tok) :=
  letp (a, r) <- prim toks;
  match r with
  | TSym 61%N :: TWord w :: TSym 40%N :: r' =>
      if kw (lit "any") w then letp (b, r') <- atom r'; letp (_u, r') <- expect [rpar] r'; Some (EAny a b, r')
      else None
  | TSym 61%N :: r' => letp (b, r') <- prim r'; Some (EEq a b, r')
  | TSym 62%N :: TSym 61%N :: r' => letp (b, r') <- prim r'; Some (EGe a b, r')
  | TWord w :: TSym 40%N :: r' =>
      if kw (lit "in") w then letp (l, r') <- in_list r'; Some (EIn a l, r') else Some (a, r)
  | _ => Some (a, r)
  end.
Fixpoint conditions (fuel : nat) (toks : list tok) : option (expr * list tok) :=
  match fuel with
  | 0 => None
  | S f =>
      letp (a, r) <- comparison_expr toks;
      match r with
      | TWord w :: r' => if kw (lit "and") w then letp (b, r'') <- conditions f r'; Some (EAnd a b, r'') else Some (a, r)
      | _ => Some (a, r)
      end
  end.
(** the name of a column of the answer *)
Definition label_of (toks : list tok) : gostring :=
  match toks with
  | TWord w :: TSym 46%N :: TWord c :: _ => c
  | TWord w :: _ => w
  | _ => lit "?column?"
  end.
Definition item (toks : list tok) : option ((expr * gostring) * list tok) :=
  letp (e, r) <- prim toks;
  match r with
  | TWord a :: TWord w :: r' => if kw (lit "as") a then Some ((e, low w), r') else Some ((e, label_of toks), r)
  | _ => Some ((e, label_of toks), r)
  end.
Fixpoint items (fuel : nat) (toks : list tok) : option (list (expr * gostring) * list tok) :=
  match fuel with
  | 0 => None
  | S f =>
      letp (x, r) <- item toks;
      match r with
      | TSym 44%N :: r' => letp (l, r'') <- items f r'; Some (x :: l, r'')
      | _ => Some ([x], r)
      end
  end.
Definition table_alias (name deflt : gostring) (toks : list tok) : table_ref * list tok :=
  match toks with
  | TWord a :: TWord w :: r => if kw (lit "as") a then (mk_tr name (low w), r) else (mk_tr name deflt, toks)
  | _ => (mk_tr name deflt, toks)
  end.
Definition from_table (toks : list tok) : option (table_ref * list tok) :=
  match toks with
  | TWord w :: TSym 46%N :: TWord c :: r => Some (table_alias (low w ++ lit "." ++ low c) (low c) r)
  | TWord w :: r => if is_kw w then None else Some (table_alias (low w) (low w) r)
  | _ => None
  end.
Fixpoint joins (fuel : nat) (toks : list tok) : option (list (bool * table_ref * expr) * list tok) :=
  match fuel with
  | 0 => None
  | S f =>
      let one (outer : bool) (r : list tok) :=
        letp (t, r) <- from_table r;
        letp (_u, r) <- expect [w_ "on"] r;
        letp (e, r) <- conditions (length r) r;
        letp (l, r) <- joins f r;
        Some ((outer, t, e) :: l, r) in
      match expect [w_ "inner"; w_ "join"] toks with
      | Some (_, r) => one false r
      | None =>
          match expect [w_ "left"; w_ "outer"; w_ "join"] toks with
          | Some (_, r) => one true r
          | None => Some ([], toks)
          end
      end
  end.
Fixpoint order_list (fuel : nat) (toks : list tok) : option (list expr * list tok) :=
  match fuel with
  | 0 => None
  | S f =>
      letp (x, r) <- atom toks;
      match r with
      | TSym 44%N :: r' => letp (l, r'') <- order_list f r'; Some (x :: l, r'')
      | _ => Some ([x], r)
      end
  end.
Definition order_by (toks : list tok) : option (list expr * list tok) :=
  match expect [w_ "order"; w_ "by"] toks with
  | Some (_, r) => order_list (length r) r
  | None => Some ([], toks)
  end.
(** SELECT items FROM table joins WHERE conditions ORDER BY columns, one semicolon allowed *)
Definition parse_toks (toks : list tok) : option query :=
  letp (_u, r) <- expect [w_ "select"] toks;
  letp (its, r) <- items (length r) r;
  letp (_u, r) <- expect [w_ "from"] r;
  letp (t, r) <- from_table r;
  letp (js, r) <- joins (length r) r;
  letp (_u, r) <- expect [w_ "where"] r;
  letp (wh, r) <- conditions (length r) r;
  letp (ord, r) <- order_by r;
  match r with
  | [] | [TSym 59%N] => Some (mk_q its t js wh ord)
  | _ => None
  end.
Definition parse_sql (text : gostring) : option query := parse_toks (lex 1 [] None text).

(** * Evaluating *)
Inductive value := VNull | VText (s : gostring) | VInt (z : Z) | VBool (b : bool) | VInts (l : list Z) | VTexts (l : list gostring).
Definition row := list (gostring * value).
(** the rows in reach, by alias; None: the row of NULLs of an outer join *)
Definition env := list (gostring * option row).
Record database := mk_db {
  d_rel : gostring -> option (list row);
  (* how texts compare *)
  d_coll : gostring -> gostring -> comparison;
  (* the text of a part of an index, counted from 1 *)
  d_indexdef : Z -> N -> gostring }.

Fixpoint assoc {A} (k : gostring) (l : list (gostring * A)) : option A :=
  match l with [] => None | (n, v) :: l' => if seqb n k then Some v else assoc k l' end.
Definition col_of (c : gostring) (r : option row) : option value :=
  match r with None => Some VNull | Some r => assoc c r end.
Definition lookup_col (t c : gostring) (e : env) : option value :=
  match assoc t e with Some r => col_of c r | None => None end.
Fixpoint lookup_bare (c : gostring) (e : env) : option value :=
  match e with
  | [] => None
  | (_, r) :: e' => match col_of c r with Some v => Some v | None => lookup_bare c e' end
  end.

Section Eval.
Variable d : database.
Variable args : list gostring.

Definition eq_values (a b : value) : option value :=
  match a, b with
  | VNull, _ | _, VNull => Some VNull
  | VText x, VText y => Some (VBool (match d_coll d x y with Eq => true | _ => false end))
  | VInt x, VInt y => Some (VBool (Z.eqb x y))
  | VBool x, VBool y => Some (VBool (Bool.eqb x y))
  | _, _ => None
  end.
Definition ge_values (a b : value) : option value :=
  match a, b with
  | VNull, _ | _, VNull => Some VNull
  | VInt x, VInt y => Some (VBool (Z.leb y x))
  | _, _ => None
  end.
Definition or_values (a b : value) : option value :=
  match a, b with
  | VBool x, VBool y => Some (VBool (x || y))
  | VBool true, VNull | VNull, VBool true => Some (VBool true)
  | VBool false, VNull | VNull, VBool false | VNull, VNull => Some VNull
  | _, _ => None
  end.
Definition and_values (a b : value) : option value :=
  match a, b with
  | VBool x, VBool y => Some (VBool (x && y))
  | VBool false, VNull | VNull, VBool false => Some (VBool false)
  | VBool true, VNull | VNull, VBool true | VNull, VNull => Some VNull
  | _, _ => None
  end.
Definition bind2 (f : value -> value -> option value) (a b : option value) : option value :=
  match a, b with Some x, Some y => f x y | _, _ => None end.
Fixpoint eval (e : env) (x : expr) : option value :=
  match x with
  | EText s => Some (VText s)
  | EInt z => Some (VInt z)
  | EBool b => Some (VBool b)
  | EArg n => match n with 0%N => None | _ => option_map VText (nth_error args (N.to_nat n - 1)) end
  | ECol t c => lookup_col t c e
  | EBare c => lookup_bare c e
  | ECoalesce a b => match eval e a with Some VNull => eval e b | r => r end
  | EIndexDefs a b =>
      bind2 (fun id ks =>
        match id, ks with
        | VInt z, VInts l => Some (VTexts (map (fun k => d_indexdef d z (N.of_nat k + 1)) (seq 0 (length l))))
        | VNull, _ | _, VNull => Some VNull
        | _, _ => None
        end) (eval e a) (eval e b)
  | EEq a b => bind2 eq_values (eval e a) (eval e b)
  | EGe a b => bind2 ge_values (eval e a) (eval e b)
  | EAny a b =>
      bind2 (fun x y =>
        match x, y with
        | VNull, _ | _, VNull => Some VNull
        | VInt z, VInts l => Some (VBool (existsb (Z.eqb z) l))
        | _, _ => None
        end) (eval e a) (eval e b)
  | EIn a l =>
      match eval e a with
      | None => None
      | Some v =>
          fold_right (fun y acc => bind2 or_values (bind2 eq_values (Some v) (eval e y)) acc) (Some (VBool false)) l
      end
  | EAnd a b => bind2 and_values (eval e a) (eval e b)
  end.

(** whether the row is in: only when the condition is true *)
Definition holds (x : expr) (e : env) : option bool :=
  match eval e x with
  | Some (VBool b) => Some b
  | Some VNull => Some false
  | _ => None
  end.
Fixpoint filter_opt {A} (f : A -> option bool) (l : list A) : option (list A) :=
  match l with
  | [] => Some []
  | x :: l' =>
      match f x, filter_opt f l' with
      | Some b, Some r => Some (if b then x :: r else r)
      | _, _ => None
      end
  end.
Fixpoint map_opt {A B} (f : A -> option B) (l : list A) : option (list B) :=
  match l with
  | [] => Some []
  | x :: l' => match f x, map_opt f l' with Some y, Some r => Some (y :: r) | _, _ => None end
  end.
Definition join_one (outer : bool) (t : table_ref) (on : expr) (rows : list row) (e : env) : option (list env) :=
  match filter_opt (holds on) (map (fun r => e ++ [(tr_alias t, Some r)]) rows) with
  | None => None
  | Some [] => Some (if outer then [e ++ [(tr_alias t, None)]] else [])
  | Some l => Some l
  end.
Definition join_table (envs : list env) (outer : bool) (t : table_ref) (on : expr) : option (list env) :=
  match d_rel d (tr_name t) with
  | None => None
  | Some rows => option_map (@concat env) (map_opt (join_one outer t on rows) envs)
  end.
Fixpoint join_tables (envs : list env) (js : list (bool * table_ref * expr)) : option (list env) :=
  match js with
  | [] => Some envs
  | (outer, t, on) :: js' =>
      match join_table envs outer t on with None => None | Some envs' => join_tables envs' js' end
  end.
Definition from_envs (q : query) : option (list env) :=
  match d_rel d (tr_name (q_from q)) with
  | None => None
  | Some rows => join_tables (map (fun r => [(tr_alias (q_from q), Some r)]) rows) (q_joins q)
  end.
Definition project (q : query) (e : env) : option row :=
  map_opt (fun it => option_map (pair (snd it)) (eval e (fst it))) (q_items q).
Definition compare_values (a b : option value) : comparison :=
  match a, b with
  | Some (VText x), Some (VText y) => d_coll d x y
  | Some (VInt x), Some (VInt y) => Z.compare x y
  | _, _ => Eq
  end.
Fixpoint before (keys : list expr) (a b : env) : bool :=
  match keys with
  | [] => false
  | k :: keys' =>
      match compare_values (eval a k) (eval b k) with Lt => true | Gt => false | Eq => before keys' a b end
  end.
(** The rows the server may answer: those of the joined tables that satisfy the
    condition, in an order that ORDER BY allows. *)
Definition answers (q : query) (rows : list row) : Prop :=
  exists envs kept ordered,
    from_envs q = Some envs /\ filter_opt (holds (q_where q)) envs = Some kept /\
    Permutation ordered kept /\ sorted_by (before (q_order q)) ordered /\
    map_opt (project q) ordered = Some rows.
End Eval.

(** A server answering the questions of this small language from the relations of [d];
    it may fail at any time, and answer anything to other texts. *)
Definition answers_from (d : database) (server : gostring * list gostring -> outcome (list row)) : Prop :=
  forall text args rows q, server (text, args) = Ok rows -> parse_sql text = Some q -> answers d args q rows.
