(** The Hasura suggest command from start to end: the requests with their bodies, the
    answers with their status and text, and the report. *)
From Coq Require Import String List NArith ZArith QArith Bool Lia Arith.
From Verif Require Import Base Dec IndexText IndexBuild TableFields Existing ExplainTree PlanView Examiner SuggestCmd Json HandOver CommandText Program.
From Verif Require PgExplain MysqlCollect PgAst PgCollect Hasura.
Import ListNotations.

(** infra/hasura/client.go:15-19 *)
Definition graphql_path : gostring := lit "/v1/graphql".
(** client.go:17 *)
Definition explain_path : gostring := lit "/v1/graphql/explain".
(** client.go:18 *)
Definition query_path : gostring := lit "/v2/query".

(** What comes back of a request: nothing (or a body that cannot be read to its end), or a
    status and a text. *)
(** client.go:131-146 *)
Inductive answer := NoAnswer (m : gostring) | Answer (status : N) (text : gostring).
(** The server; a request also has a duration in milliseconds (hservice/index_examiner.go:25-34). *)
Record hworld (W : Type) := {
  h_post : W -> gostring -> jv -> W * Z * answer;
  h_write : W -> gostring -> build_option -> W * option gostring }.
Arguments h_post {W}. Arguments h_write {W}.

(** client.go:119-147 post *)
Definition posted (a : answer) : outcome gostring :=
  match a with
  | NoAnswer m => Err (lit "failed to execute http request to hasura: " ++ m)
  | Answer status text =>
      if N.eqb status 200 then Ok text
      else Err (lit "Request to Hasura failed (Status=" ++ dec_of_N status ++ lit "): " ++ text)
  end.

(** ** Request bodies *)
(** query.go, explain_request_body.go; a nil map is null *)
(** query.go:5 *)
Definition variables_json (v : option (list (gostring * jv))) : jv := match v with None => JNull | Some l => JObj l end.
(** query.go:3-6 *)
Definition gql_json (query : gostring) (v : option (list (gostring * jv))) : jv :=
  JObj [(lit "query", JStr query); (lit "variables", variables_json v)].
(** explain_request_body.go:3-6 with hasura/postgres.go:84-89: no User *)
Definition explain_json (query : gostring) (v : option (list (gostring * jv))) : jv :=
  JObj [(lit "query", gql_json query v); (lit "user", JNull)].
(** client.go:66-70 with run_sql_args.go; the keys of a map are written in their order *)
Definition run_sql_json (rq : Hasura.run_sql) : jv :=
  JObj [(lit "args", JObj [(lit "sql", JStr (Hasura.rs_sql rq)); (lit "source", JNull); (lit "cascade", JNull);
                           (lit "check_metadata_consistency", JNull);
                           (lit "read_only", match Hasura.rs_read_only rq with None => JNull | Some b => JBool b end)]);
        (lit "type", JStr (lit "run_sql"))].

(** ** Reading answers with encoding/json.  A member sets the field of the same name, up to
    the letter case of [fold]; members of other names are skipped; null leaves a text as it
    is and makes a list empty.  (Simplified: of several members for a field the last counts
    as a whole.) *)
(** encoding/json; no lines in /repo *)
Definition decode_message : gostring := lit "json: cannot unmarshal".
(** encoding/json; no lines in /repo *)
Definition as_text (v : jv) : outcome gostring :=
  match v with JStr s => Ok s | JNull => Ok [] | _ => Err decode_message end.
(** encoding/json; no lines in /repo *)
Fixpoint as_each {A} (f : jv -> outcome A) (l : list jv) : outcome (list A) :=
  match l with [] => Ok [] | v :: l' => do x <- f v; do r <- as_each f l'; Ok (x :: r) end.
(** encoding/json; no lines in /repo *)
Definition as_list {A} (f : jv -> outcome A) (v : jv) : outcome (list A) :=
  match v with JArr l => as_each f l | JNull => Ok [] | _ => Err decode_message end.

(** explain_response.go; Field is never read *)
(** explain_response.go:3-7 *)
Record explanation := mk_expl { ex_field : gostring; ex_plan : list gostring; ex_sql : gostring }.
Section Decode.
  Context (fold : rune -> rune).
  (** encoding/json; no lines in /repo *)
  Definition named (name key : gostring) : bool := seqb (map fold name) (map fold key).
  (** explain_response.go:3-7 *)
  Fixpoint read_explanation (l : list (gostring * jv)) (cur : explanation) : outcome explanation :=
    match l with
    | [] => Ok cur
    | (k, v) :: l' =>
        if named (lit "field") k then
          do s <- match v with JNull => Ok (ex_field cur) | _ => as_text v end; read_explanation l' (mk_expl s (ex_plan cur) (ex_sql cur))
        else if named (lit "plan") k then
          do p <- as_list as_text v; read_explanation l' (mk_expl (ex_field cur) p (ex_sql cur))
        else if named (lit "sql") k then
          do s <- match v with JNull => Ok (ex_sql cur) | _ => as_text v end; read_explanation l' (mk_expl (ex_field cur) (ex_plan cur) s)
        else read_explanation l' cur
    end.
  (** a *ExplainResponse; [None] is nil *)
  (** explain_response.go:3-7 *)
  Definition as_explanation (v : jv) : outcome (option explanation) :=
    match v with
    | JNull => Ok None
    | JObj l => do e <- read_explanation l (mk_expl [] [] []); Ok (Some e)
    | _ => Err decode_message
    end.
  (** run_sql_response.go *)
  (** run_sql_response.go:3-6 *)
  Fixpoint read_result (l : list (gostring * jv)) (cur : list (list gostring)) : outcome (list (list gostring)) :=
    match l with
    | [] => Ok cur
    | (k, v) :: l' =>
        if named (lit "result_type") k then do _ <- as_text v; read_result l' cur
        else if named (lit "result") k then do r <- as_list (as_list as_text) v; read_result l' r
        else read_result l' cur
    end.
  (** run_sql_response.go:3-6 *)
  Definition as_result (v : jv) : outcome (list (list gostring)) :=
    match v with JNull => Ok [] | JObj l => read_result l [] | _ => Err decode_message end.
End Decode.

(** ** Variables *)
(** hasura/postgres.go:134-141 parseJSONToVariables: numbers become float64 ([float];
    [None] for one out of range), objects become maps, which are written back with their
    keys in order. *)
Fixpoint text_lt (a b : gostring) : bool :=
  match a, b with
  | [], _ :: _ => true
  | x :: a', y :: b' => N.ltb x y || (N.eqb x y && text_lt a' b')
  | _, [] => false
  end.
(** encoding/json: a map with its keys in order; no lines in /repo *)
Fixpoint put (k : gostring) (v : jv) (m : list (gostring * jv)) : list (gostring * jv) :=
  match m with
  | [] => [(k, v)]
  | (k', v') :: m' => if seqb k k' then (k, v) :: m' else if text_lt k k' then (k, v) :: m else (k', v') :: put k v m'
  end.
Section Variables.
  Context (float : Q -> option Q).
  (** encoding/json into interface{}, hasura/postgres.go:135-136 *)
  Fixpoint as_any (v : jv) : outcome jv :=
    match v with
    | JNum q => match float q with Some q' => Ok (JNum q') | None => Err decode_message end
    | JArr l =>
        do r <- (fix go l := match l with [] => Ok [] | x :: l' => do y <- as_any x; do ys <- go l'; Ok (y :: ys) end) l;
        Ok (JArr r)
    | JObj l =>
        do m <- (fix go l m := match l with [] => Ok m | (k, x) :: l' => do y <- as_any x; go l' (put k y m) end) l [];
        Ok (JObj m)
    | _ => Ok v
    end.
  (** hasura/postgres.go:134-141 parseJSONToVariables *)
  Definition parse_variables (unmarshal : gostring -> option jv) (text : gostring) : outcome (option (list (gostring * jv))) :=
    match unmarshal text with
    | None => Err (lit "failed to parse variables: " ++ decode_message)
    | Some JNull => Ok None
    | Some (JObj l) =>
        match as_any (JObj l) with
        | Ok (JObj m) => Ok (Some m)
        | Ok _ => Panic
        | Err m => Err (lit "failed to parse variables: " ++ m)
        | Panic => Panic
        end
    | Some _ => Err (lit "failed to parse variables: " ++ decode_message)
    end.
End Variables.

Section Run.
  Context {W : Type} (hv : hworld W) (unmarshal : gostring -> option jv) (kfold : rune -> rune).
  (** client.go:119-147 *)
  Definition post (path : gostring) (body : jv) : @prog W gostring := fun w =>
    let '(w1, _, a) := h_post hv w path body in ([APost path body], w1, posted a).
  (** client.go:46-57 Explain *)
  Definition explain_gql (query : gostring) (v : option (list (gostring * jv))) : @prog W (list (option explanation)) :=
    andthen (post explain_path (explain_json query v)) (fun text =>
    give (match unmarshal text with
          | None => Err (lit "failed to decode response from Hasura: " ++ decode_message)
          | Some j => match as_list (as_explanation kfold) j with
                      | Err m => Err (lit "failed to decode response from Hasura: " ++ m)
                      | o => o
                      end
          end)).
  (** client.go:66-81 RunSQL *)
  Definition result_of (text : gostring) : outcome (list (list gostring)) :=
    match unmarshal text with
    | None => Err (lit "failed to unmarshal response from Hasura: " ++ decode_message)
    | Some j => match as_result kfold j with
                | Err m => Err (lit "failed to unmarshal response from Hasura: " ++ m)
                | o => o
                end
    end.
  (** client.go:66-81 RunSQL *)
  Definition run_sql (rq : Hasura.run_sql) : @prog W (list (list gostring)) :=
    andthen (post query_path (run_sql_json rq)) (fun text => give (result_of text)).
  (** hservice/index_examiner.go *)
  (** hservice/index_examiner.go:25-49 *)
  Definition hasura_examiner (query : gostring) (v : option (list (gostring * jv))) : database W :=
    let raw w sql :=
      let '(w1, _, a) := h_post hv w query_path (run_sql_json {| Hasura.rs_sql := sql; Hasura.rs_read_only := None |}) in
      (w1, match (do text <- posted a; result_of text) with Ok _ => None | Err m => Some m | Panic => Some [] end) in
    {| db_execute := fun w =>
         let '(w1, ms, a) := h_post hv w graphql_path (gql_json query v) in
         (w1, match posted a with Ok _ => inl ms | Err m => inr (lit "query for GraphQL failed: " ++ m) | Panic => inr [] end);
       db_create := fun w n it => raw w (pg_create_sql n it);
       db_drop := fun w n it => raw w (pg_drop_sql n it) |}.

  Section Options.
    Context (fold : rune -> rune) (so : list gostring -> list gostring)
      (ord : order gostring) (ordf : order ifield) (srt : list index_target_table -> list index_target_table)
      (unix : N) (rnds : nat -> N)
      (norm : gostring -> gostring) (parse : gostring -> outcome (list PgAst.node)) (scan : gostring -> outcome (list gostring)).
    (** client.go:83-117, hservice/parser/collect_table_schemas.go, hservice/index_getter.go *)
    Definition ask_columns (tables : list gostring) : @prog W (list (gostring * gostring * bool)) :=
      andthen (give (Hasura.build_query Hasura.column_template (lit "public") tables)) (fun q =>
      andthen (run_sql {| Hasura.rs_sql := q; Hasura.rs_read_only := Some true |}) (fun rows =>
      give (Hasura.parse_columns rows))).
    (** client.go:101-117 with hservice/index_getter.go:17-26 *)
    Definition ask_indexes (tables : list gostring) : @prog W (list index_target) :=
      andthen (give (Hasura.build_query Hasura.index_template (lit "public") tables)) (fun q =>
      andthen (run_sql {| Hasura.rs_sql := q; Hasura.rs_read_only := Some true |}) (fun rows =>
      give (Hasura.parse_indexes scan rows))).
    (** hservice/index_suggester.go with hservice/parser/index.go *)
    (** hservice/index_suggester.go:21-48 *)
    Definition suggest_for (sql : gostring) : @prog W (list index_target) :=
      andthen (give (parse sql)) (fun stmts =>
      match stmts with
      | [] => give Panic
      | _ :: _ :: _ => give (Err (lit "not supporting query having multiple statements"))
      | [root] =>
          andthen (give (PgCollect.collect_table_names norm so root)) (fun r =>
          andthen (give (MysqlCollect.first_error r)) (fun tables =>
          andthen (ask_columns tables) (fun cols =>
          andthen (give (check_schemas tables (create_table_schemas tables cols))) (fun schemas =>
          andthen (give (PgCollect.collect_scopes norm (lit "public") root)) (fun r =>
          andthen (give (MysqlCollect.first_error r)) (fun scopes =>
          andthen (give (build ord ordf srt schemas scopes)) (fun its =>
          andthen (ask_indexes (table_names its)) (fun infos =>
          give (Ok (kept fold its infos))))))))))
      end).
    (** [conclude] only writes *)
    (** hasura/postgres.go:123-130 *)
    Definition writer : world W :=
      {| on_open := fun w _ => (w, None); on_select := fun w _ => (w, Ok []); on_exec := fun w _ => (w, inl 0%Z);
         on_write := h_write hv; on_close := fun w => w |}.
    (** cmd/db/suggest/hasura/postgres.go:83-132 suggest *)
    Definition many_message (n : nat) : gostring :=
      lit "not supporting multiple gql executing multiple queries. " ++ dec_of_N (N.of_nat n) ++ lit " query will be run".
    (** hasura/postgres.go:83-132 *)
    Definition hasura_suggest_cmd (runs : bool) (texts : list gostring) (query variables output : gostring)
        (v : option (list (gostring * jv))) : @prog W unit :=
      andthen (explain_gql query v) (fun res =>
      match res with
      | [None] => give Panic
      | [Some r] =>
          andthen (give (PgExplain.build_explain (ex_plan r))) (fun plan =>
          andthen (suggest_for (ex_sql r)) (fun its =>
          andthen (give (new_index_targets_from_texts texts)) (fun vars =>
          conclude writer
            (examine_with (hasura_examiner query v)
               (fun n it => APost query_path (run_sql_json {| Hasura.rs_sql := pg_create_sql n it; Hasura.rs_read_only := None |}))
               (fun n it => APost query_path (run_sql_json {| Hasura.rs_sql := pg_drop_sql n it; Hasura.rs_read_only := None |}))
               (APost graphql_path (gql_json query v)) unix rnds vars its) runs output
            (suggest_html SubHasura runs output query variables v (ex_sql r) (plan_view pg_vm (fst plan)) (snd plan) its))))
      | _ => give (Err (many_message (length res)))
      end).
    (** hasura/postgres.go:63-81: prepare, then run; config.go:15-34 *)
    Definition hasura_main (float : Q -> option Q) (parse_url : gostring -> outcome unit) (env : gostring -> gostring)
        (runs : bool) (texts : list gostring) (query variables output : gostring) : @prog W unit :=
      andthen (give (parse_variables float unmarshal variables)) (fun v =>
      andthen (give (ConnText.hasura_config_from_env parse_url env)) (fun _ =>
      hasura_suggest_cmd runs texts query variables output v)).
  End Options.
End Run.
