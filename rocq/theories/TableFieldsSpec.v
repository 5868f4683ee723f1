(** Declarative meaning of a statement scope: which base table columns each
    output column comes from, and which base table columns are used and how.
    Tables are functions; nothing is said about any order of evaluation.  With
    [amb = False] every unqualified name and every starred name must have only one
    possible meaning; with [amb = True] any of the possible meanings may be taken. *)
From Coq Require Import String List NArith Bool Lia Permutation.
From Verif Require Import Base IndexText IndexBuild TableFields.
Import ListNotations.

(** Base columns (table, column) an output column is computed from. *)
Notation refs := (list (list N * list N)) (only parsing).
(** A table: its columns. *)
Notation rel := (list N -> option (list (list N * list N))) (only parsing).
(** Tables by name. *)
Notation env := (list N -> option (list N -> option (list (list N * list N)))) (only parsing).
(** One use of a base column. *)
Notation use := (list N * list N * field_type)%type (only parsing).

Definition upd {A} (f : gostring -> option A) (k : gostring) (v : A) : gostring -> option A :=
  fun x => if seqb x k then Some v else f x.
(** [b] shadows [a]. *)
Definition over {A} (a b : gostring -> option A) : gostring -> option A :=
  fun k => match b k with Some v => Some v | None => a k end.

(** The last table with property [p]. *)
Fixpoint last_such (p : table -> bool) (l : list table) : option table :=
  match l with
  | [] => None
  | t :: l' => match last_such p l' with Some t' => Some t' | None => if p t then Some t else None end
  end.

Section Spec.
  Context (db : smap table_schema) (amb : Prop).

  (** A column that exists. *)
  Definition schema_col (ci : gostring * gostring) : Prop :=
    exists ts, mget db (fst ci) = Some ts /\ In (snd ci) (ts_cols ts).

  (** The base table of that name, if it has columns and is listed in FROM. *)
  Definition base (tables : list table) : env := fun n =>
    if existsb (fun t => seqb (t_name t) n) tables then
      match mget db n with
      | Some ts => match ts_cols ts with
                   | [] => None
                   | cols => Some (fun c => if str_in c cols then Some [(n, c)] else None)
                   end
      | None => None
      end
    else None.

  (** Names visible while a scope is evaluated. *)
  Record senv := mk_senv { s_int : env; s_ext : env; s_as : gostring -> option gostring; s_sq : gostring -> Prop }.

  Definition start (tables : list table) (ext : env) : senv :=
    {| s_int := base tables; s_ext := ext;
       s_as := fun k => match last_such (fun t => seqb (as_or_name t) k) tables with
                        | Some t => Some (t_name t)
                        | None => match ext k with Some _ => Some k | None => None end
                        end;
       s_sq := fun k => ext k <> None |}.

  Definition with_sub (e : senv) (name as_name : gostring) (o : rel) : senv :=
    {| s_int := upd (s_int e) name o; s_ext := s_ext e; s_as := upd (s_as e) as_name name;
       s_sq := fun k => k = as_name \/ s_sq e k |}.

  (** Aliases of the tables of the scope itself. *)
  Definition shown (e : senv) : env := fun a => match s_as e a with Some n => s_int e n | None => None end.

  (** The table an alias stands for. *)
  Definition named (e : senv) (a : gostring) : option rel :=
    match s_as e a with
    | None => None
    | Some n => match s_int e n with Some f => Some f | None => s_ext e n end
    end.

  Definition some_table (E : env) (n : gostring) (r : refs) : Prop := exists k f, E k = Some f /\ f n = Some r.
  Definition no_table_has (E : env) (n : gostring) : Prop := forall k f, E k = Some f -> f n = None.

  (** An unqualified name. *)
  Definition unqualified (e : senv) (n : gostring) (r : refs) : Prop :=
    some_table (s_int e) n r \/
    (no_table_has (s_int e) n /\
     (some_table (s_ext e) n r \/ (no_table_has (s_ext e) n /\ s_sq e n /\ r = []))).

  Definition col_means (e : senv) (c : fcol) (r : refs) : Prop :=
    match fc_type c with
    | FSubquery | FStar => r = []
    | _ =>
        match fc_table c with
        | [] => unqualified e (fc_name c) r /\ (amb \/ forall r', unqualified e (fc_name c) r' -> r' = r)
        | a => exists f, named e a = Some f /\ f (fc_name c) = Some r
        end
    end.

  Definition uses_of (ty : field_type) (r : refs) : list use := map (fun ci => (fst ci, snd ci, ty)) r.

  Inductive cols_mean (e : senv) : list fcol -> refs -> list use -> Prop :=
  | cm_nil : cols_mean e [] [] []
  | cm_cons : forall c cs r rs us, col_means e c r -> cols_mean e cs rs us ->
      cols_mean e (c :: cs) (r ++ rs) (uses_of (fc_type c) r ++ us).

  Inductive fields_mean (e : senv) : list field -> list (gostring * refs) -> list use -> Prop :=
  | fm_nil : fields_mean e [] [] []
  | fm_cons : forall f fs r outs us us',
      cols_mean e (f_cols f) r us -> fields_mean e fs outs us' ->
      fields_mean e (f :: fs) (match field_name f with [] => outs | n => (n, r) :: outs end) (us ++ us').

  (** [a.*] or [*] occurs in the select list. *)
  Definition starred (fields : list field) (a : gostring) : Prop :=
    exists f c, In f fields /\ In c (f_cols f) /\ fc_type c = FStar /\ fc_table c = a.
  Definition star_means (e : senv) (fields : list field) (n : gostring) (r : refs) : Prop :=
    exists a, starred fields a /\
      match a with
      | [] => some_table (s_int e) n r
      | _ => exists f, named e a = Some f /\ f n = Some r
      end.
  Definition stars_known (e : senv) (fields : list field) : Prop :=
    forall a, starred fields a -> a <> [] -> named e a <> None.

  Definition output (e : senv) (fields : list field) (outs : list (gostring * refs)) (o : rel) : Prop :=
    forall n, match mget outs n with
              | Some r => o n = Some r
              | None => match o n with
                        | Some r => star_means e fields n r /\ (amb \/ forall r', star_means e fields n r' -> r' = r)
                        | None => forall r, ~ star_means e fields n r
                        end
              end.

  Inductive means : scope -> env -> rel -> list use -> Prop :=
  | means_scope : forall name fields fscopes tables subs ext e1 e2 u1 u2 u3 outs o,
      subs_mean tables ext (start tables ext) subs e1 u1 ->
      fscopes_mean (shown e1) e1 fscopes e2 u2 ->
      fields_mean e2 fields outs u3 ->
      stars_known e2 fields ->
      output e2 fields outs o ->
      means (Scope name fields fscopes tables subs) ext o (u1 ++ u2 ++ u3)
  with subs_mean : list table -> env -> senv -> list scope -> senv -> list use -> Prop :=
  | sm_nil : forall tables ext e, subs_mean tables ext e [] e []
  | sm_cons : forall tables ext e s ss t o u e' u',
      last_such (fun t => seqb (t_name t) (scope_name s)) tables = Some t ->
      means s (if t_lateral t then over ext (shown e) else ext) o u ->
      subs_mean tables ext (with_sub e (scope_name s) (as_or_name t) o) ss e' u' ->
      subs_mean tables ext e (s :: ss) e' (u ++ u')
  with fscopes_mean : env -> senv -> list scope -> senv -> list use -> Prop :=
  | fs_nil : forall vis e, fscopes_mean vis e [] e []
  | fs_cons : forall vis e s ss o u e' u',
      means s vis o u ->
      fscopes_mean vis (with_sub e (scope_name s) (scope_name s) o) ss e' u' ->
      fscopes_mean vis e (s :: ss) e' (u ++ u').
End Spec.

(** What has to be recorded for a list of uses: each used column once, as a
    condition iff it is a condition somewhere. *)
Definition recorded (rf : tab_fields) (t c : gostring) (ty : field_type) : Prop :=
  exists l, mget rf t = Some l /\ In (c, ty) l.
Definition records (rf : tab_fields) (us : list use) : Prop :=
  NoDup (keys rf) /\
  (forall t l, mget rf t = Some l -> l <> [] /\ NoDup (map fst l)) /\
  (forall t c, (exists ty, recorded rf t c ty) <-> (exists ty, In (t, c, ty) us)) /\
  (forall t c ty, recorded rf t c ty -> In (t, c, ty) us) /\
  ((forall t c ty, In (t, c, ty) us -> ty = FReference \/ ty = FCondition) ->
   forall t c, recorded rf t c FCondition <-> In (t, c, FCondition) us).

(** Induction over scopes. *)
Section Ind.
  Context (P : scope -> Prop).
  Context (H : forall n fs fscs ts subs, Forall P fscs -> Forall P subs -> P (Scope n fs fscs ts subs)).
  Fixpoint scope_ind' (s : scope) : P s :=
    match s with
    | Scope n fs fscs ts subs =>
        H n fs fscs ts subs
          ((fix go (l : list scope) : Forall P l :=
              match l with [] => Forall_nil P | x :: l' => Forall_cons x (scope_ind' x) (go l') end) fscs)
          ((fix go (l : list scope) : Forall P l :=
              match l with [] => Forall_nil P | x :: l' => Forall_cons x (scope_ind' x) (go l') end) subs)
    end.
End Ind.
