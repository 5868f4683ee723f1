(** The command line of the program: which command the words name and what its options
    are set to.  github.com/spf13/cobra v1.6.1 and github.com/spf13/pflag v1.0.5 (go.mod:25,100)
    do the work; the parts of them that the program uses are restated here (the libraries
    are trusted to do so, like the standard library).

    Simplifications.  Strings are lists of code points: pflag looks at the bytes of a group
    of short options, which differs only for a first character outside ASCII, and that is no
    short option either way.  Not restated: the commands help and completion that cobra adds
    to the root (they run nothing of the program: [HelpCmd] and [CompletionCmd]), the hidden
    command __complete, "Did you mean" suggestions in the message for an unknown command,
    and the texts printed for help. *)
From Coq Require Import String List NArith ZArith Bool Lia Arith.
From Verif Require Import Base.
Import ListNotations.

(** pflag: Bool, String, StringArray and Int flags *)
(** pflag flag types; no lines in /repo *)
Inductive kind := KBool | KString | KArray | KInt.
(** pflag.Flag; [fl_required] is the annotation of cobra.MarkFlagRequired *)
(** pflag flag.go, type Flag; no lines in /repo *)
Record flag := mk_flag { fl_name : gostring; fl_short : option rune; fl_kind : kind; fl_required : bool }.
(** what a command runs *)
(** the functions given as RunE or Run: mysql.go:20-24, postgres.go:20-24, hasura/postgres.go:24-34, performance_insights.go:17-21, jaeger.go:21-30, version.go:12-14; the last two are cobra's *)
Inductive job := MysqlCmd | PostgresCmd | HasuraPostgresCmd | InsightsCmd | JaegerCmd | VersionCmd | HelpCmd | CompletionCmd.
(** cobra.Command: name, own flags, persistent flags, sub-commands, what RunE or Run is *)
(** cobra command.go Command; no lines in /repo *)
Inductive command := Cmd (name : gostring) (own persistent : list flag) (subs : list command) (runs : option job).
(** a member of cobra's Command; no lines in /repo *)
Definition cmd_name (c : command) : gostring := let 'Cmd n _ _ _ _ := c in n.
(** a member of cobra's Command; no lines in /repo *)
Definition cmd_own (c : command) : list flag := let 'Cmd _ o _ _ _ := c in o.
(** a member of cobra's Command; no lines in /repo *)
Definition cmd_persistent (c : command) : list flag := let 'Cmd _ _ p _ _ := c in p.
(** a member of cobra's Command; no lines in /repo *)
Definition cmd_subs (c : command) : list command := let 'Cmd _ _ _ s _ := c in s.
(** a member of cobra's Command; no lines in /repo *)
Definition cmd_runs (c : command) : option job := let 'Cmd _ _ _ _ r := c in r.

(** ** The commands of the program *)
(** cmd/db/suggest/mysql.go:18-36 and postgres.go:18-36 *)
Definition suggest_flags : list flag :=
  [mk_flag (lit "with-examine") None KBool false; mk_flag (lit "index") (Some 105%N) KArray false;
   mk_flag (lit "query") (Some 113%N) KString true].
(** cmd/db/suggest/mysql.go:18-36 *)
Definition mysql_cmd : command := Cmd (lit "mysql") suggest_flags [] [] (Some MysqlCmd).
(** cmd/db/suggest/postgres.go:18-36 *)
Definition postgres_cmd : command := Cmd (lit "postgres") suggest_flags [] [] (Some PostgresCmd).
(** cmd/db/suggest/hasura/postgres.go:21-50 *)
Definition hasura_postgres_cmd : command :=
  Cmd (lit "postgres") (suggest_flags ++ [mk_flag (lit "json-variables") None KString false]) [] [] (Some HasuraPostgresCmd).
(** cmd/db/suggest/hasura.go:8-15 *)
Definition hasura_cmd : command := Cmd (lit "hasura") [] [] [hasura_postgres_cmd] None.
(** cmd/db/suggest.go:8-17 *)
Definition suggest_cmd : command := Cmd (lit "suggest") [] [] [mysql_cmd; postgres_cmd; hasura_cmd] None.
(** cmd/db/dig/performance_insights.go:15-25 *)
Definition insights_cmd : command :=
  Cmd (lit "performance-insights") [mk_flag (lit "start-from") None KString false] [] [] (Some InsightsCmd).
(** cmd/db/dig.go:8-15 *)
Definition db_dig_cmd : command := Cmd (lit "dig") [] [] [insights_cmd] None.
(** cmd/db.go:19-24 and cmd/app.go:18-23 *)
Definition output_flag : flag := mk_flag (lit "output") (Some 111%N) KString true.
(** cmd/db.go:10-25 *)
Definition db_cmd : command := Cmd (lit "db") [] [output_flag] [suggest_cmd; db_dig_cmd] None.
(** cmd/app/dig/jaeger.go:19-44 *)
Definition jaeger_cmd : command :=
  Cmd (lit "jaeger")
    [mk_flag (lit "service-name") (Some 115%N) KString true; mk_flag (lit "min-duration-millisecond") (Some 100%N) KInt false;
     mk_flag (lit "same-service-threshold") (Some 116%N) KInt false; mk_flag (lit "count") (Some 99%N) KInt false;
     mk_flag (lit "start-from") None KString false] [] [] (Some JaegerCmd).
(** cmd/app/dig.go:8-15 *)
Definition app_dig_cmd : command := Cmd (lit "dig") [] [] [jaeger_cmd] None.
(** cmd/app.go:10-24 *)
Definition app_cmd : command := Cmd (lit "app") [] [output_flag] [app_dig_cmd] None.
(** cmd/version.go:9-15 *)
Definition version_cmd : command := Cmd (lit "version") [] [] [] (Some VersionCmd).
(** cmd/root.go:14-35,47-54; cobra command.go InitDefaultHelpCmd, completions.go
    InitDefaultCompletionCmd (its sub-commands are left out) *)
Definition root_cmd : command :=
  Cmd (lit "gr") [] [mk_flag (lit "use-mock") None KBool false; mk_flag (lit "verbose") (Some 118%N) KBool false]
    [db_cmd; app_cmd; version_cmd; Cmd (lit "help") [] [] [] (Some HelpCmd); Cmd (lit "completion") [] [] [] (Some CompletionCmd)] None.

(** ** pflag *)
(** flag.go Lookup, ShorthandLookup *)
(** pflag; no lines in /repo *)
Definition by_name (fs : list flag) (n : gostring) : option flag := List.find (fun f => seqb (fl_name f) n) fs.
(** pflag; no lines in /repo *)
Definition by_short (fs : list flag) (c : rune) : option flag :=
  List.find (fun f => match fl_short f with Some d => N.eqb d c | None => false end) fs.
(** bool.go: BoolVarP sets NoOptDefVal to "true"; no other kind has one *)
(** pflag; no lines in /repo *)
Definition needs_value (f : flag) : bool := match fl_kind f with KBool => false | _ => true end.
(** what was set, in turn: flag.go Set *)
(** pflag; no lines in /repo *)
Definition settings := list (gostring * gostring).

(** strconv/atob.go ParseBool *)
(** Go's standard library; no lines in /repo *)
Definition parse_bool (s : gostring) : option bool :=
  if existsb (seqb s) [lit "1"; lit "t"; lit "T"; lit "true"; lit "TRUE"; lit "True"] then Some true
  else if existsb (seqb s) [lit "0"; lit "f"; lit "F"; lit "false"; lit "FALSE"; lit "False"] then Some false else None.

(** Go's standard library; no lines in /repo *)
Fixpoint has_rune (c : rune) (s : gostring) : bool := match s with [] => false | d :: r => N.eqb c d || has_rune c r end.
(** strings.SplitN(name, "=", 2) *)
Fixpoint cut_at_equals (s : gostring) : gostring * option gostring :=
  match s with
  | [] => ([], None)
  | c :: r => if N.eqb c 61 then ([], Some r) else let '(a, b) := cut_at_equals r in (c :: a, b)
  end.
(** Go's standard library; no lines in /repo *)
Fixpoint starts_with (p s : gostring) : bool :=
  match p, s with
  | [], _ => true
  | x :: p', y :: s' => N.eqb x y && starts_with p' s'
  | _, _ => false
  end.

Section Parse.
  (** strconv.ParseInt(text, 0, 64); Go's %q of a string and of a character *)
  Context (parse_int : gostring -> outcome Z) (q : gostring -> gostring) (q1 : rune -> gostring).

  (** the Set methods of the kinds: bool.go, int.go, string.go, string_array.go *)
  (** pflag; no lines in /repo *)
  Definition set_value (f : flag) (v : gostring) : outcome (gostring * gostring) :=
    let refuse (m : gostring) :=
      Err (lit "invalid argument " ++ q v ++ lit " for " ++
           q (match fl_short f with Some c => lit "-" ++ [c] ++ lit ", --" | None => lit "--" end ++ fl_name f) ++
           lit " flag: " ++ m) in
    match fl_kind f with
    | KBool => match parse_bool v with
               | Some _ => Ok (fl_name f, v)
               | None => refuse (lit "strconv.ParseBool: parsing " ++ q v ++ lit ": invalid syntax")
               end
    | KInt => match parse_int v with Ok _ => Ok (fl_name f, v) | Err m => refuse m | Panic => Panic end
    | KString | KArray => Ok (fl_name f, v)
    end.

  (** flag.go parseShortArg with parseSingleShortArg; [next] is the following word; the
      second result tells whether it was taken *)
  (** pflag; no lines in /repo *)
  Fixpoint parse_short (fs : list flag) (shorts : gostring) (next : option gostring) : outcome (settings * bool) :=
    match shorts with
    | [] => Ok ([], false)
    | c :: r =>
        if starts_with (lit "test.") shorts then Ok ([], false)
        else match by_short fs c with
             | None => Err (lit "unknown shorthand flag: " ++ q1 c ++ lit " in -" ++ shorts)
             | Some f =>
                 if match r with e :: _ :: _ => N.eqb e 61 | _ => false end then do kv <- set_value f (tl r); Ok ([kv], false)
                 else if needs_value f then
                   match r, next with
                   | _ :: _, _ => do kv <- set_value f r; Ok ([kv], false)
                   | [], Some v => do kv <- set_value f v; Ok ([kv], true)
                   | [], None => Err (lit "flag needs an argument: " ++ q1 c ++ lit " in -" ++ shorts)
                   end
                 else do kv <- set_value f (lit "true");
                      do rest <- parse_short fs r next;
                      Ok (kv :: fst rest, snd rest)
             end
    end.

  (** flag.go parseLongArg; [s] is the word without the leading dashes *)
  (** pflag; no lines in /repo *)
  Definition parse_long (fs : list flag) (s : gostring) (next : option gostring) : outcome (settings * bool) :=
    match s with
    | [] => Err (lit "bad flag syntax: --")
    | c :: _ =>
        if N.eqb c 45 || N.eqb c 61 then Err (lit "bad flag syntax: --" ++ s) else
        let '(name, value) := cut_at_equals s in
        match by_name fs name with
        | None => Err (lit "unknown flag: --" ++ name)
        | Some f =>
            match value with
            | Some v => do kv <- set_value f v; Ok ([kv], false)
            | None =>
                if needs_value f then
                  match next with
                  | Some v => do kv <- set_value f v; Ok ([kv], true)
                  | None => Err (lit "flag needs an argument: --" ++ s)
                  end
                else do kv <- set_value f (lit "true"); Ok ([kv], false)
            end
        end
    end.

  (** flag.go parseArgs *)
  (** pflag; no lines in /repo *)
  Inductive look := Plain | Dashes | Long (name : gostring) | Short (letters : gostring).
  (** pflag; no lines in /repo *)
  Definition look_at (s : gostring) : look :=
    match s with
    | c :: ((d :: r) as letters) =>
        if N.eqb c 45 then if N.eqb d 45 then match r with [] => Dashes | _ => Long r end else Short letters else Plain
    | _ => Plain
    end.
  (** pflag; no lines in /repo *)
  Fixpoint parse_args (fs : list flag) (args : list gostring) : outcome (settings * list gostring) :=
    match args with
    | [] => Ok ([], [])
    | s :: args' =>
        let go (parsed : outcome (settings * bool)) :=
          do p <- parsed;
          do rest <- (match args', snd p with
                      | _ :: args2, true => parse_args fs args2
                      | _, _ => parse_args fs args'
                      end);
          Ok (fst p ++ fst rest, snd rest) in
        match look_at s with
        | Dashes => Ok ([], args')
        | Long name => go (parse_long fs name (hd_error args'))
        | Short letters => go (parse_short fs letters (hd_error args'))
        | Plain => do rest <- parse_args fs args'; Ok (fst rest, s :: snd rest)
        end
    end.

  (** ** cobra *)
  (** command.go stripFlags and argsMinusFirstX: the word is an option whose value is the next word *)
  (** cobra; no lines in /repo *)
  Definition skips_next (fs : list flag) (s : gostring) : bool :=
    negb (has_rune 61 s) &&
    match look_at s with
    | Long name => negb (match by_name fs name with Some f => negb (needs_value f) | None => false end)
    | Short [c] => negb (match by_short fs c with Some f => negb (needs_value f) | None => false end)
    | _ => false
    end.
  (** cobra; no lines in /repo *)
  Definition dashed (s : gostring) : bool := match s with c :: _ => N.eqb c 45 | [] => false end.
  (** command.go stripFlags *)
  (** cobra; no lines in /repo *)
  Fixpoint strip_flags (fs : list flag) (args : list gostring) : list gostring :=
    match args with
    | [] => []
    | s :: args' =>
        if seqb s (lit "--") then []
        else if skips_next fs s then match args' with _ :: ((_ :: _) as args2) => strip_flags fs args2 | _ => [] end
        else if negb (dashed s) && negb (seqb s []) then s :: strip_flags fs args'
        else strip_flags fs args'
    end.
  (** command.go argsMinusFirstX *)
  (** cobra; no lines in /repo *)
  Fixpoint minus_first (fs : list flag) (args : list gostring) (x : gostring) : list gostring :=
    match args with
    | [] => []
    | s :: args' =>
        if seqb s (lit "--") then args
        else if skips_next fs s then s :: match args' with [] => [] | v :: args2 => v :: minus_first fs args2 x end
        else if negb (dashed s) && seqb s x then args'
        else s :: minus_first fs args' x
    end.

  (** command.go Find (innerfind and findNext); [inherited]: the persistent flags of the
      parents.  Gives the command, its flags and the words left to it. *)
  (** cobra; no lines in /repo *)
  Fixpoint find_cmd (inherited : list flag) (c : command) (args : list gostring) : command * list flag * list gostring :=
    match c with
    | Cmd n own persistent subs runs =>
        let fs := own ++ persistent ++ inherited in
        match strip_flags fs args with
        | [] => (c, fs, args)
        | next :: _ =>
            (fix search (l : list command) :=
               match l with
               | [] => (c, fs, args)
               | d :: l' => if seqb (cmd_name d) next then find_cmd (persistent ++ inherited) d (minus_first fs args next) else search l'
               end) subs
        end
    end.

  (** what a command line does *)
  (** cobra; no lines in /repo *)
  Inductive start := ShowHelp | Run (j : job) (set : settings) (words : list gostring).

  (** reading the variables that the flags are bound to *)
  (** pflag; no lines in /repo *)
  Definition values (n : gostring) (st : settings) : list gostring := map snd (filter (fun kv => seqb (fst kv) n) st).
  (** pflag; no lines in /repo *)
  Definition string_of (n default : gostring) (st : settings) : gostring := last (values n st) default.
  (** pflag; no lines in /repo *)
  Definition bool_of (n : gostring) (st : settings) : bool :=
    match parse_bool (string_of n (lit "false") st) with Some b => b | None => false end.
  (** pflag; no lines in /repo *)
  Definition int_of (n : gostring) (default : Z) (st : settings) : Z :=
    match values n st with
    | [] => default
    | v => match parse_int (last v []) with Ok z => z | _ => default end
    end.
  (** pflag; no lines in /repo *)
  Definition changed (n : gostring) (st : settings) : bool := match values n st with [] => false | _ => true end.

  (** cmd/db/suggest/mysql.go:28-31,58, postgres.go:28-31,58, hasura/postgres.go:41-45,80:
      runsExamination, indexTargets, query, jsonVariables and flag.DbFlag.Output
      (cmd/flag/db_flag.go:3-7) *)
  Record suggest_options := { so_runs : bool; so_texts : list gostring; so_query : gostring; so_variables : gostring; so_output : gostring }.
  (** mysql.go:26-36, postgres.go:26-36, hasura/postgres.go:38-50 *)
  Definition suggest_options_of (st : settings) : suggest_options :=
    {| so_runs := bool_of (lit "with-examine") st; so_texts := values (lit "index") st; so_query := string_of (lit "query") [] st;
       so_variables := string_of (lit "json-variables") (lit "{}") st; so_output := string_of (lit "output") [] st |}.
  (** cmd/app/dig/jaeger.go:34-38,102 and flag.AppFlag.Output (cmd/flag/app_flag.go:3-7) *)
  Record dig_options := { do_service : gostring; do_millis : Z; do_threshold : Z; do_count : Z; do_start : gostring; do_output : gostring }.
  (** jaeger.go:32-44 *)
  Definition jaeger_options_of (st : settings) : dig_options :=
    {| do_service := string_of (lit "service-name") [] st; do_millis := int_of (lit "min-duration-millisecond") 1000 st;
       do_threshold := int_of (lit "same-service-threshold") 5 st; do_count := int_of (lit "count") 500 st;
       do_start := string_of (lit "start-from") [] st; do_output := string_of (lit "output") [] st |}.
  (** cmd/db/dig/performance_insights.go:24,43 *)
  Definition insights_options_of (st : settings) : gostring * gostring :=
    (string_of (lit "start-from") [] st, string_of (lit "output") [] st).

  (** command.go ValidateRequiredFlags; VisitAll goes through the names in order *)
  (** cobra; no lines in /repo *)
  Fixpoint insert_name (n : gostring) (l : list gostring) : list gostring :=
    match l with [] => [n] | m :: l' => if sltb n m then n :: l else m :: insert_name n l' end.
  (** cobra; no lines in /repo *)
  Definition missing_flags (fs : list flag) (st : settings) : list gostring :=
    fold_right insert_name [] (map fl_name (filter (fun f => fl_required f && negb (changed (fl_name f) st)) fs)).

  (** command.go InitDefaultHelpFlag *)
  (** cobra; no lines in /repo *)
  Definition help_flag : flag := mk_flag (lit "help") (Some 104%N) KBool false.

  (** command.go ExecuteC, execute, ValidateArgs, args.go legacyArgs; cmd/root.go:39-45.
      [Err]: the message is logged and the program exits with 1. *)
  Definition start_of (root : command) (argv : list gostring) : outcome start :=
    let '(c, fs, args) := find_cmd [] root argv in
    do _ <- (match strip_flags fs args with
    | w :: _ =>
        if seqb (cmd_name c) (cmd_name root) && negb (match cmd_subs c with [] => true | _ => false end)
        then Err (lit "unknown command " ++ q w ++ lit " for " ++ q (cmd_name root))
        else Ok tt
    | [] => Ok tt
    end);
    do parsed <- parse_args (fs ++ [help_flag]) args;
    if bool_of (lit "help") (fst parsed) then Ok ShowHelp
    else match cmd_runs c with
         | None => Ok ShowHelp
         | Some j =>
             match missing_flags fs (fst parsed) with
             | [] => Ok (Run j (fst parsed) (snd parsed))
             | ms => Err (lit "required flag(s) """ ++ join (lit """, """) ms ++ lit """ not set")
             end
         end.
End Parse.
