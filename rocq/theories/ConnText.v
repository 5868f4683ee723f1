(** Database configurations from the environment and the connection texts made of them. *)
From Coq Require Import String List NArith Bool Lia Arith.
From Verif Require Import Base.
Import ListNotations.

(** lib/env.go:8-14; [env] is os.Getenv, empty for an unset variable *)
Definition get_env (env : gostring -> gostring) (key : gostring) : outcome gostring :=
  match env key with
  | [] => Err (lit "env: " ++ key ++ lit " is not set")
  | v => Ok v
  end.

(** infra/postgres/config.go:9-17 *)
Record pg_config := mk_pg {
  pg_user : gostring; pg_password : gostring; pg_host : gostring; pg_port : gostring;
  pg_dbname : gostring; pg_search_path : gostring; pg_param_text : gostring }.
(** config.go:19-43 NewConfigFromEnv *)
Definition pg_config_from_env (env : gostring -> gostring) : outcome pg_config :=
  do user <- get_env env (lit "DB_USERNAME");
  do database <- get_env env (lit "DB_DATABASE");
  Ok (mk_pg user (env (lit "DB_PASSWORD")) (env (lit "DB_HOST")) (env (lit "DB_PORT"))
        database (env (lit "DB_SEARCH_PATH")) (env (lit "DB_PARAM_TEXT"))).
(** config.go:49-66: one of the ifs *)
Definition kv (key v : gostring) : list gostring :=
  match v with [] => [] | _ => [key ++ lit "='" ++ v ++ lit "'"] end.
(** config.go:47-70 GetKVConnectionString *)
Definition kv_connection_string (c : pg_config) : gostring :=
  join (lit " ")
    (kv (lit "user") (pg_user c) ++ kv (lit "password") (pg_password c) ++ kv (lit "host") (pg_host c) ++
     kv (lit "port") (pg_port c) ++ kv (lit "dbname") (pg_dbname c) ++
     match pg_param_text c with [] => [] | p => [p] end ++ [lit "sslmode=disable"]).
(** config.go:72-78 *)
Definition search_path_or_public (c : pg_config) : gostring :=
  match pg_search_path c with [] => lit "public" | p => p end.

(** infra/mysql/config.go:9-12; of the driver's Config only the fields set here *)
Record my_config := mk_my {
  my_user : gostring; my_password : gostring; my_net : gostring; my_addr : gostring;
  my_dbname : gostring; my_param_text : gostring }.
(** config.go:14-45 NewConfigFromEnv *)
Definition my_config_from_env (env : gostring -> gostring) : outcome my_config :=
  do user <- get_env env (lit "DB_USERNAME");
  do database <- get_env env (lit "DB_DATABASE");
  Ok (mk_my user (env (lit "DB_PASSWORD")) (match env (lit "DB_PROTOCOL") with [] => lit "tcp" | p => p end)
        (env (lit "DB_ADDRESS")) database (env (lit "DB_PARAM_TEXT"))).
(** go-sql-driver/mysql v1.6.0 Config.FormatDSN with every other field as NewConfig
    leaves it, so that it writes no parameter (library, not in /repo) *)
Definition format_dsn (c : my_config) : gostring :=
  match my_user c with
  | [] => []
  | u => u ++ match my_password c with [] => [] | p => lit ":" ++ p end ++ lit "@"
  end ++
  match my_net c with
  | [] => []
  | n => n ++ match my_addr c with [] => [] | a => lit "(" ++ a ++ lit ")" end
  end ++
  lit "/" ++ my_dbname c.
(** config.go:47-54 ToDSN *)
Definition to_dsn (c : my_config) : gostring :=
  format_dsn c ++ match my_param_text c with [] => [] | p => lit "?" ++ p end.

(** infra/hasura/config.go:10-13; [parse] is url.Parse *)
Record hasura_config (url : Type) := mk_hasura { hs_url : url; hs_secret : gostring }.
Arguments mk_hasura {url}. Arguments hs_url {url}. Arguments hs_secret {url}.
(** infra/hasura/config.go:15-34 *)
Definition hasura_config_from_env {url} (parse : gostring -> outcome url) (env : gostring -> gostring) : outcome (hasura_config url) :=
  do u <- get_env env (lit "HASURA_URL");
  do uu <- match parse u with
           | Err m => Err (lit "cannot parse URL for Hasura: " ++ u ++ lit ": " ++ m)
           | x => x
           end;
  do s <- get_env env (lit "HASURA_ADMIN_SECRET");
  Ok (mk_hasura uu s).
