(** The command line that the report offers for examining the suggested indexes. *)
From Coq Require Import String List NArith Bool Lia Arith.
From Verif Require Import Base IndexText.
Import ListNotations.

(** html/viewmodel/vm_examination_command_option.go:8-12 *)
Record cmd_option := mk_opt { co_short : bool; co_name : gostring; co_value : gostring }.

(** filepath.Ext (path/filepath, for a slash as separator): from the last dot of the
    last element; the text is scanned from its end *)
(** Go's standard library; no lines in /repo, used at vm_examination_command_option.go:14-25 *)
Fixpoint ext_back (r acc : gostring) : gostring :=
  match r with
  | [] => []
  | c :: r' => if N.eqb c 47 then [] else if N.eqb c 46 then c :: acc else ext_back r' (c :: acc)
  end.
(** Go's standard library; no lines in /repo, used at vm_examination_command_option.go:14-25 *)
Definition file_ext (s : gostring) : gostring := ext_back (rev s) [].
(** strings.TrimSuffix *)
(** Go's standard library; no lines in /repo, used at vm_examination_command_option.go:14-25 *)
Definition trim_suffix (s suf : gostring) : gostring :=
  let n := length s - length suf in
  if (Nat.leb (length suf) (length s) && seqb (skipn n s) suf)%bool then firstn n s else s.
(** vm_examination_command_option.go:14-25 CreateOutputExaminationOption *)
Definition create_output_option (add_prefix : bool) (filename : gostring) : cmd_option :=
  mk_opt true (lit "o")
    (if add_prefix then trim_suffix filename (file_ext filename) ++ lit "_examine" ++ file_ext filename else filename).

(** client/src/models/ExaminationCommandOption.ts:8: a double quote, dollar, backquote or backslash is
    preceded by a backslash *)
Definition needs_escape (c : rune) : bool := (N.eqb c 34 || N.eqb c 36 || N.eqb c 96 || N.eqb c 92)%bool.
(** ExaminationCommandOption.ts:8 *)
Definition escape_value (v : gostring) : gostring := flat_map (fun c => if needs_escape c then [92%N; c] else [c]) v.
(** ExaminationCommandOption.ts:6-15 ToCommandString; the test is /^\w+$/ *)
Definition to_command_string (o : cmd_option) : gostring :=
  let dash := if co_short o then lit "-" else lit "--" in
  let escaped := escape_value (co_value o) in
  if (negb (match escaped with [] => true | _ => false end) && forallb is_word escaped)%bool
  then dash ++ co_name o ++ lit " " ++ escaped
  else dash ++ co_name o ++ lit " " ++ lit """" ++ escaped ++ lit """".

(** client/src/models/IndexTarget.ts:14-16 toGrIndexOption; inside the quotes is
    [to_gr_index_option] of IndexText.v *)
Definition quoted_index_option (it : index_target) : gostring := lit """" ++ to_gr_index_option it ++ lit """".
(** client/src/components/IndexSuggestion.svelte:6-10 *)
Inductive sub_command := SubMysql | SubPostgres | SubHasura.
(** IndexSuggestion.svelte:6-10,19-37 *)
Definition sub_text (k : sub_command) : gostring :=
  match k with SubMysql => lit "mysql" | SubPostgres => lit "postgres" | SubHasura => lit "hasura postgres" end.
(** IndexSuggestion.svelte:19-37 *)
Definition next_line : gostring := lit " \" ++ [10%N].
(** IndexSuggestion.svelte:19-37 buildCommandText *)
Definition build_command_text (k : sub_command) (targets : list index_target) (opts : list cmd_option) : gostring :=
  lit "gr db suggest " ++ sub_text k ++ lit " --with-examine" ++ next_line ++
  (match targets with
   | [] => [9%N] ++ lit "-i ..." ++ next_line
   | _ => concat (map (fun it => [9%N] ++ lit "-i " ++ quoted_index_option it ++ next_line) targets)
   end) ++
  join next_line (map (fun o => 9%N :: to_command_string o) opts).
(** cmd/db/suggest/mysql.go:124-128, postgres.go:128-132, hasura/postgres.go:174-178: the
    options given to the report; [runs] is whether this run examined itself *)
Definition report_options (k : sub_command) (runs : bool) (output query variables : gostring) : list cmd_option :=
  [create_output_option (negb runs) output; mk_opt true (lit "q") query] ++
  match k with SubHasura => [mk_opt false (lit "json-variables") variables] | _ => [] end.

(** IndexTarget.ts:9-12, 18-22 and PostgresIndexTarget.ts:4-8 *)
Definition target_string (it : index_target) : gostring :=
  lit "Table=" ++ it_table it ++ lit " / Column=" ++ join (lit ", ") (it_cols it).
(** IndexTarget.ts:18-22 *)
Definition mysql_add_sql (it : index_target) : gostring :=
  lit "ALTER TABLE " ++ it_table it ++ lit " ADD INDEX (" ++ join (lit ", ") (it_cols it) ++ lit ");".
(** PostgresIndexTarget.ts:4-8 *)
Definition pg_add_sql (it : index_target) : gostring :=
  lit "CREATE INDEX ON " ++ it_table it ++ lit " (" ++ join (lit ", ") (it_cols it) ++ lit ");".
(** HasuraIndexTarget.ts:4-15 toExecutableText; a backslash before a line end in a template
    literal gives nothing, so the first five lines are one *)
Definition nl : gostring := [10%N].
(** HasuraIndexTarget.ts:4-15 *)
Definition tab : gostring := [9%N].
(** HasuraIndexTarget.ts:4-15 *)
Definition hasura_executable_text (it : index_target) : gostring :=
  lit "curl --request POST   --url ""${HASURA_URL}/v2/query""   --header 'Content-Type: application/json'   --header ""x-hasura-admin-secret: ${HASURA_ADMIN_SECRET}""   --data '{" ++ nl ++
  tab ++ lit """type"": ""run_sql""," ++ nl ++
  tab ++ lit """args"": {" ++ nl ++
  tab ++ tab ++ lit """sql"": """ ++ pg_add_sql it ++ lit """" ++ nl ++
  tab ++ lit "}" ++ nl ++
  lit "}'".
