(** What the messages about missing tables and columns say about a scope, and everything a
    refused suggestion may say. *)
From Coq Require Import String List NArith Bool.
From Verif Require Import Base IndexBuild TableFields.
Import ListNotations.

Inductive scope_in : scope -> scope -> Prop :=
| si_self : forall s, scope_in s s
| si_field : forall name fields fscs tables subs k s, In k fscs -> scope_in k s -> scope_in (Scope name fields fscs tables subs) s
| si_sub : forall name fields fscs tables subs k s, In k subs -> scope_in k s -> scope_in (Scope name fields fscs tables subs) s.
(** A column mentioned in the scope itself *)
Definition mentioned (s : scope) (c : fcol) : Prop := match s with Scope _ fields _ _ _ => exists f, In f fields /\ In c (f_cols f) end.
Definition reads (s : scope) (t : table) : Prop := match s with Scope _ _ _ tables _ => In t tables end.
Definition called (t : table) (n : gostring) : Prop := (t_as t = [] /\ n = t_name t) \/ (t_as t <> [] /\ n = t_as t).
Inductive missing (s : scope) : gostring -> Prop :=
| missing_column : forall c, mentioned s c -> fc_type c <> FStar -> fc_type c <> FSubquery ->
    missing s (of_string ": no column found for " ++ fc_name c)
| missing_alias : forall c, mentioned s c -> fc_type c <> FSubquery -> fc_table c <> [] ->
    missing s (of_string ": no table found: " ++ fc_table c)
| missing_table : forall c t, mentioned s c -> fc_type c <> FSubquery -> fc_table c <> [] -> reads s t -> called t (fc_table c) ->
    missing s (of_string ": no table found: " ++ t_name t).
(** [select] answers with the columns of the tables *)
Inductive no_such_table (select : list gostring -> outcome (list (list N * list N * bool))) (tables : list gostring) : gostring -> Prop :=
| nst_none : tables = [] -> no_such_table select tables (of_string "failed to build query to get table schema: empty slice passed to 'in' query")
| nst_failed : forall m, tables <> [] -> select tables = Err m -> no_such_table select tables m
| nst_view : forall rows t, select tables = Ok rows -> In t tables -> (forall c pk, ~ In (t, c, pk) rows) ->
    no_such_table select tables (of_string ": unknown table found. perhaps using VIEW? not supporting: " ++ t).
