(** The text of the data in the report.  html/html_builder.go:25-41 puts the data with
    an action of html/template inside a script element, which writes it with
    encoding/json.  Both libraries are restated here: encoding/json (Marshal with its
    escapes of < > & and of the line ends U+2028 and U+2029) and jsValEscaper of
    html/template, which adds nothing to an object.  Texts are lists of code points, so
    they are valid UTF-8.  How a number is written is left open.
    None of the definitions in this file has lines in /repo of its own. *)
From Coq Require Import String List NArith ZArith QArith Bool Lia Arith.
From Verif Require Import Base.
Import ListNotations.
Local Open Scope nat_scope.

Inductive jv :=
| JNull | JBool (b : bool) | JNum (q : Q) | JStr (s : gostring)
| JArr (l : list jv) | JObj (l : list (gostring * jv)).

(** encoding/json encodeState.string with escapeHTML *)
Definition hex4 (c : N) : gostring :=
  let d n := if N.ltb n 10 then (48 + n)%N else (87 + n)%N in
  [d (c / 4096 mod 16)%N; d (c / 256 mod 16)%N; d (c / 16 mod 16)%N; d (c mod 16)%N].
Definition json_char (c : rune) : gostring :=
  if (N.eqb c 34 || N.eqb c 92)%bool then [92%N; c]
  else if N.eqb c 10 then lit "\n"
  else if N.eqb c 13 then lit "\r"
  else if N.eqb c 9 then lit "\t"
  else if (N.ltb c 32 || N.eqb c 60 || N.eqb c 62 || N.eqb c 38 || N.eqb c 8232 || N.eqb c 8233)%bool
       then lit "\u" ++ hex4 c
  else [c].
Definition json_string (s : gostring) : gostring := lit """" ++ flat_map json_char s ++ lit """".

Section Text.
  Variable num_text : Q -> gostring.
  (** encoding/json: arrays, structs in the order of their fields, maps in the order of
      their keys (the order of [JObj]) *)
  Fixpoint json_text (v : jv) : gostring :=
    match v with
    | JNull => lit "null"
    | JBool true => lit "true"
    | JBool false => lit "false"
    | JNum q => num_text q
    | JStr s => json_string s
    | JArr l => lit "[" ++ join (lit ",") (map json_text l) ++ lit "]"
    | JObj l => lit "{" ++ join (lit ",") (map (fun kv => json_string (fst kv) ++ lit ":" ++ json_text (snd kv)) l) ++ lit "}"
    end.
  (** html/html_builder.go:32-34: the script element *)
  Definition report_script (gr : jv) : gostring :=
    [10%N] ++ lit "      window.grParam = " ++ json_text gr ++ [10%N] ++ lit "    ".
End Text.
