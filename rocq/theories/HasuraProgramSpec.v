(** What a user may rely on when letting the Hasura command talk to a server: the requests
    as Hasura understands them, their order, and how its answers are read. *)
From Coq Require Import String List NArith ZArith QArith Bool Lia Arith.
From Verif Require Import Base IndexText IndexTextSpec Examiner SqlServer MetaSql Json HandOver Program ProgramSpec.
From Verif Require Hasura HasuraSpec.
Import ListNotations.
Local Open Scope nat_scope.

(** ** Requests as Hasura understands them *)
Inductive heard :=
| HExplain (query : gostring) (variables : jv)  (* explain a GraphQL query, as admin *)
| HQuery (query : gostring) (variables : jv)    (* run a GraphQL query *)
| HSql (sql : gostring) (read_only : bool)      (* run SQL on the default source *)
| HWrite (path : gostring) (b : build_option)   (* not a request: the report *)
| HOther.
Fixpoint field (k : gostring) (l : list (gostring * jv)) : jv :=
  match l with [] => JNull | (k', v) :: l' => if seqb k k' then v else field k l' end.
Definition graphql_of (make : gostring -> jv -> heard) (v : jv) : heard :=
  match v with
  | JObj l => match field (lit "query") l with JStr s => make s (field (lit "variables") l) | _ => HOther end
  | _ => HOther
  end.
Definition sql_of (l : list (gostring * jv)) : heard :=
  match field (lit "sql") l, field (lit "source") l, field (lit "cascade") l, field (lit "read_only") l with
  | JStr s, JNull, JNull, JNull => HSql s false
  | JStr s, JNull, JNull, JBool b => HSql s b
  | _, _, _, _ => HOther
  end.
Definition hear (a : act) : heard :=
  match a with
  | APost p (JObj l) =>
      if seqb p (lit "/v1/graphql/explain") then
        match field (lit "user") l with JNull => graphql_of HExplain (field (lit "query") l) | _ => HOther end
      else if seqb p (lit "/v1/graphql") then graphql_of HQuery (JObj l)
      else if seqb p (lit "/v2/query") then
        match field (lit "type") l, field (lit "args") l with
        | JStr t, JObj args => if seqb t (lit "run_sql") then sql_of args else HOther
        | _, _ => HOther
        end
      else HOther
  | AWrite p b => HWrite p b
  | _ => HOther
  end.

(** ** The conversation *)
(** A question about columns or indexes of some of the tables, which must be words: the
    template with the names as literals; an understandable SELECT if there are tables. *)
Definition asks_public (template : gostring) (table : gostring -> Prop) (sql : gostring) : Prop :=
  exists tables, (forall t, In t tables -> table t) /\ Forall HasuraSpec.word tables /\
    HasuraSpec.filled template (lit "public") tables sql /\ (tables <> [] -> exists q, parse_sql sql = Some q).
Section Conversation.
  Context (query : gostring) (variables : jv) (output : gostring) (runs : bool) (vars : outcome (list index_target))
    (table : gostring -> Prop) (wrote : build_option -> option gostring -> Prop).
  Definition create_index (n : gostring) (it : index_target) : heard :=
    HSql (lit "CREATE INDEX """ ++ n ++ lit """ ON """ ++ it_table it ++ lit """ (" ++
          join (lit ",") (map (fun c => lit """" ++ map (fun x => if is_word x then x else 95%N) c ++ lit """") (it_cols it)) ++ lit ")") false.
  Definition drop_index (n : gostring) (it : index_target) : heard := HSql (lit "DROP INDEX """ ++ n ++ lit """") false.
  Inductive hasura_talk : list heard -> outcome unit -> Prop :=
  | ho_explain : forall r, failed r -> hasura_talk [HExplain query variables] r
  | ho_columns : forall q r, asks_public Hasura.column_template table q -> failed r ->
      hasura_talk [HExplain query variables; HSql q true] r
  | ho_indexes : forall q q' r, asks_public Hasura.column_template table q -> asks_public Hasura.index_template table q' -> failed r ->
      hasura_talk [HExplain query variables; HSql q true; HSql q' true] r
  | ho_examine : forall q q' v targets exam r, asks_public Hasura.column_template table q -> asks_public Hasura.index_template table q' ->
      vars = Ok v -> runs = true -> targets_of table v targets ->
      examined_some create_index drop_index (HQuery query variables) targets exam -> failed r ->
      hasura_talk (HExplain query variables :: HSql q true :: HSql q' true :: exam) r
  | ho_report : forall q q' v exam report r, asks_public Hasura.column_template table q -> asks_public Hasura.index_template table q' ->
      vars = Ok v ->
      (if runs then exists targets, targets_of table v targets /\ examined_all create_index drop_index (HQuery query variables) targets exam
       else exam = []) ->
      ended HWrite output wrote report r ->
      hasura_talk (HExplain query variables :: HSql q true :: HSql q' true :: exam ++ report) r.
End Conversation.

(** ** Variables *)
(** The same value but for its numbers, which are what [float] makes of them, and for the
    members of objects, which may come in another order, of several with a name the last. *)
Definition last_of {A} (k : gostring) (l : list (gostring * A)) (v : A) : Prop :=
  exists l1 l2, l = l1 ++ (k, v) :: l2 /\ forall v', ~ In (k, v') l2.
Inductive sent_as (float : Q -> option Q) : jv -> jv -> Prop :=
| sent_null : sent_as float JNull JNull
| sent_bool : forall b, sent_as float (JBool b) (JBool b)
| sent_str : forall s, sent_as float (JStr s) (JStr s)
| sent_num : forall q q', float q = Some q' -> sent_as float (JNum q) (JNum q')
| sent_arr : forall l l', Forall2 (sent_as float) l l' -> sent_as float (JArr l) (JArr l')
| sent_obj : forall l l', NoDup (map fst l') ->
    (forall k, In k (map fst l) <-> In k (map fst l')) ->
    (forall k v v', last_of k l v -> In (k, v') l' -> sent_as float v v') ->
    sent_as float (JObj l) (JObj l').
