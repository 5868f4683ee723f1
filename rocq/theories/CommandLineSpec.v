(** What a command line means, independently of how it is read: the grammar of options and
    the table of commands and options that the README and the help texts tell of. *)
From Coq Require Import String List NArith ZArith Bool Lia Arith.
From Verif Require Import Base CommandLine.
Import ListNotations.

(** flags that can be told apart and written *)
Definition distinct (fs : list flag) : Prop :=
  NoDup (map fl_name fs) /\
  (forall f g c, In f fs -> In g fs -> fl_short f = Some c -> fl_short g = Some c -> f = g) /\
  (forall f, In f fs -> exists c r, fl_name f = c :: r /\ c <> 45%N /\ ~ In 61%N (fl_name f)).

Section Grammar.
  Context (parse_int : gostring -> outcome Z) (fs : list flag).

  (** a text that the flag accepts *)
  Definition fits (f : flag) (v : gostring) : Prop :=
    match fl_kind f with
    | KBool => In v [lit "1"; lit "t"; lit "T"; lit "true"; lit "TRUE"; lit "True"; lit "0"; lit "f"; lit "F"; lit "false"; lit "FALSE"; lit "False"]
    | KInt => exists z, parse_int v = Ok z
    | KString | KArray => True
    end.
  Definition letter (c : rune) (f : flag) : Prop := In f fs /\ fl_short f = Some c.
  Definition for_go_test (s : gostring) : Prop := exists r, s = lit "test." ++ r.
  Definition joined (s : gostring) : Prop := exists d v, s = 61%N :: d :: v.

  (** the letters behind one dash, the following word if they take it, what they set *)
  Inductive group : gostring -> option gostring -> settings -> Prop :=
  | g_end : group [] None []
  | g_test : forall r, group (lit "test." ++ r) None []
  | g_switch : forall c f r next st, ~ for_go_test (c :: r) -> letter c f -> fl_kind f = KBool -> ~ joined r ->
      group r next st -> group (c :: r) next ((fl_name f, lit "true") :: st)
  | g_equals : forall c f d v, ~ for_go_test (c :: 61%N :: d :: v) -> letter c f -> fits f (d :: v) ->
      group (c :: 61%N :: d :: v) None [(fl_name f, d :: v)]
  | g_attached : forall c f d v, ~ for_go_test (c :: d :: v) -> letter c f -> fl_kind f <> KBool -> ~ joined (d :: v) -> fits f (d :: v) ->
      group (c :: d :: v) None [(fl_name f, d :: v)]
  | g_next : forall c f v, letter c f -> fl_kind f <> KBool -> fits f v -> group [c] (Some v) [(fl_name f, v)].

  (** a word that is no option *)
  Definition plain (w : gostring) : Prop := w = [] \/ w = lit "-" \/ exists c r, w = c :: r /\ c <> 45%N.

  (** the words, the settings that they make in turn, and the words that are no options *)
  Inductive reads : list gostring -> settings -> list gostring -> Prop :=
  | r_nil : reads [] [] []
  | r_plain : forall w args st ws, plain w -> reads args st ws -> reads (w :: args) st (w :: ws)
  | r_dashes : forall args, reads (lit "--" :: args) [] args
  | r_equals : forall f v args st ws, In f fs -> fits f v -> reads args st ws ->
      reads ((lit "--" ++ fl_name f ++ lit "=" ++ v) :: args) ((fl_name f, v) :: st) ws
  | r_switch : forall f args st ws, In f fs -> fl_kind f = KBool -> reads args st ws ->
      reads ((lit "--" ++ fl_name f) :: args) ((fl_name f, lit "true") :: st) ws
  | r_value : forall f v args st ws, In f fs -> fl_kind f <> KBool -> fits f v -> reads args st ws ->
      reads ((lit "--" ++ fl_name f) :: v :: args) ((fl_name f, v) :: st) ws
  | r_group : forall c r set args st ws, c <> 45%N -> group (c :: r) None set -> reads args st ws ->
      reads ((lit "-" ++ c :: r) :: args) (set ++ st) ws
  | r_group_next : forall c r v set args st ws, c <> 45%N -> group (c :: r) (Some v) set -> reads args st ws ->
      reads ((lit "-" ++ c :: r) :: v :: args) (set ++ st) ws.
End Grammar.

(** ** The commands *)
Definition path (j : job) : list gostring :=
  match j with
  | MysqlCmd => [lit "db"; lit "suggest"; lit "mysql"]
  | PostgresCmd => [lit "db"; lit "suggest"; lit "postgres"]
  | HasuraPostgresCmd => [lit "db"; lit "suggest"; lit "hasura"; lit "postgres"]
  | InsightsCmd => [lit "db"; lit "dig"; lit "performance-insights"]
  | JaegerCmd => [lit "app"; lit "dig"; lit "jaeger"]
  | VersionCmd => [lit "version"]
  | HelpCmd => [lit "help"]
  | CompletionCmd => [lit "completion"]
  end.
(** the options of each command: long name, letter, kind *)
Definition common : list (gostring * option rune * kind) :=
  [(lit "help", Some 104%N, KBool); (lit "use-mock", None, KBool); (lit "verbose", Some 118%N, KBool)].
Definition suggesting : list (gostring * option rune * kind) :=
  [(lit "output", Some 111%N, KString); (lit "query", Some 113%N, KString); (lit "index", Some 105%N, KArray); (lit "with-examine", None, KBool)].
Definition options (j : job) : list (gostring * option rune * kind) :=
  common ++
  match j with
  | MysqlCmd | PostgresCmd => suggesting
  | HasuraPostgresCmd => suggesting ++ [(lit "json-variables", None, KString)]
  | InsightsCmd => [(lit "output", Some 111%N, KString); (lit "start-from", None, KString)]
  | JaegerCmd =>
      [(lit "output", Some 111%N, KString); (lit "service-name", Some 115%N, KString);
       (lit "min-duration-millisecond", Some 100%N, KInt); (lit "same-service-threshold", Some 116%N, KInt);
       (lit "count", Some 99%N, KInt); (lit "start-from", None, KString)]
  | VersionCmd | HelpCmd | CompletionCmd => []
  end.
(** what must be given *)
Definition required (j : job) : list gostring :=
  match j with
  | MysqlCmd | PostgresCmd | HasuraPostgresCmd => [lit "output"; lit "query"]
  | InsightsCmd => [lit "output"]
  | JaegerCmd => [lit "output"; lit "service-name"]
  | VersionCmd | HelpCmd | CompletionCmd => []
  end.
(** flags as in the table; what is required does not matter for reading *)
Definition table (j : job) : list flag := map (fun o => mk_flag (fst (fst o)) (snd (fst o)) (snd o) false) (options j).

(** the last text given to an option *)
Definition last_given (n : gostring) (st : settings) (v : gostring) : Prop :=
  exists before after, st = before ++ (n, v) :: after /\ ~ In n (map fst after).
Definition says_yes (v : gostring) : Prop := In v [lit "1"; lit "t"; lit "T"; lit "true"; lit "TRUE"; lit "True"].
(** the words ask for the help text *)
Definition asks_help (st : settings) : Prop := exists v, last_given (lit "help") st v /\ says_yes v.

(** what an option is worth: the last text given, else what the help text promises *)
Definition worth (n default : gostring) (st : settings) (v : gostring) : Prop :=
  last_given n st v \/ ~ In n (map fst st) /\ v = default.
(** all texts given, in turn *)
Inductive all_given (n : gostring) : settings -> list gostring -> Prop :=
| ag_nil : all_given n [] []
| ag_this : forall v st l, all_given n st l -> all_given n ((n, v) :: st) (v :: l)
| ag_other : forall m v st l, m <> n -> all_given n st l -> all_given n ((m, v) :: st) l.
(** a number: the last one given, else the default *)
Definition counts (parse_int : gostring -> outcome Z) (n : gostring) (default : Z) (st : settings) (z : Z) : Prop :=
  (exists v, last_given n st v /\ parse_int v = Ok z) \/ ~ In n (map fst st) /\ z = default.
