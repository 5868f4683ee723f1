(** Texts as bytes.  All other files take a Go string as the list of its code points; here
    it is the list of its bytes, which need not be UTF-8: an option on the command line, a
    file, or an answer of a database can have any bytes.  unicode/utf8 and encoding/json
    are restated; html/html_builder.go:25-41 writes the report with them.
    None of the definitions in this file has lines in /repo of its own. *)
From Coq Require Import String List NArith ZArith QArith Bool.
From Verif Require Import Base Json.
Import ListNotations.
Local Open Scope nat_scope.

Notation bytes := (list N) (only parsing).

(** unicode/utf8 AppendRune *)
Definition encode_rune (c : rune) : bytes :=
  if N.ltb c 128 then [c]
  else if N.ltb c 2048 then [(192 + c / 64)%N; (128 + c mod 64)%N]
  else if (N.leb 1114112 c || (N.leb 55296 c && N.leb c 57343))%bool then [239%N; 191%N; 189%N]
  else if N.ltb c 65536 then [(224 + c / 64 / 64)%N; (128 + c / 64 mod 64)%N; (128 + c mod 64)%N]
  else [(240 + c / 64 / 64 / 64)%N; (128 + c / 64 / 64 mod 64)%N; (128 + c / 64 mod 64)%N; (128 + c mod 64)%N].
Definition encode (s : gostring) : bytes := flat_map encode_rune s.

Definition within (lo hi b : N) : bool := N.leb lo b && N.leb b hi.
(** unicode/utf8 DecodeRuneInString, with the ranges that it accepts for the second byte;
    [None] is RuneError with width 1 (or 0 at the end) *)
Definition rune_at (s : bytes) : option (rune * nat) :=
  match s with
  | [] => None
  | b0 :: r =>
      if N.ltb b0 128 then Some (b0, 1)
      else if within 194 223 b0 then
        match r with
        | b1 :: _ => if within 128 191 b1 then Some (((b0 - 192) * 64 + (b1 - 128))%N, 2) else None
        | _ => None
        end
      else if within 224 239 b0 then
        match r with
        | b1 :: b2 :: _ =>
            if within (if N.eqb b0 224 then 160 else 128) (if N.eqb b0 237 then 159 else 191) b1 && within 128 191 b2
            then Some ((((b0 - 224) * 64 + (b1 - 128)) * 64 + (b2 - 128))%N, 3) else None
        | _ => None
        end
      else if within 240 244 b0 then
        match r with
        | b1 :: b2 :: b3 :: _ =>
            if within (if N.eqb b0 240 then 144 else 128) (if N.eqb b0 244 then 143 else 191) b1 && within 128 191 b2 && within 128 191 b3
            then Some (((((b0 - 240) * 64 + (b1 - 128)) * 64 + (b2 - 128)) * 64 + (b3 - 128))%N, 4) else None
        | _ => None
        end
      else None
  end.
(** range over a string: the bytes of each step and the code point, if they are one *)
Fixpoint scan_n (n : nat) (s : bytes) : list (bytes * option rune) :=
  match n, s with
  | S n', b :: r =>
      match rune_at s with
      | Some (c, w) => (firstn w s, Some c) :: scan_n n' (skipn w s)
      | None => ([b], None) :: scan_n n' r
      end
  | _, _ => []
  end.
Definition scan (s : bytes) : list (bytes * option rune) := scan_n (length s) s.
(** []rune(s) *)
Definition decode (s : bytes) : gostring := map (fun e => match snd e with Some c => c | None => 65533%N end) (scan s).

(** encoding/json encodeState.string on bytes: what is no code point becomes an escape of
    U+FFFD, other bytes are copied *)
Definition json_step (e : bytes * option rune) : bytes :=
  match e with
  | (_, None) => lit "\ufffd"
  | (b, Some c) => if (N.ltb c 128 || N.eqb c 8232 || N.eqb c 8233)%bool then json_char c else b
  end.
Definition json_string_bytes (s : bytes) : bytes := lit """" ++ flat_map json_step (scan s) ++ lit """".

(** encoding/json on values, with the writer of strings *)
Section With.
  Context (str_text : gostring -> gostring) (num_text : Q -> gostring).
  Fixpoint json_with (v : jv) : gostring :=
    match v with
    | JNull => lit "null"
    | JBool true => lit "true"
    | JBool false => lit "false"
    | JNum q => num_text q
    | JStr s => str_text s
    | JArr l => lit "[" ++ join (lit ",") (map json_with l) ++ lit "]"
    | JObj l => lit "{" ++ join (lit ",") (map (fun kv => str_text (fst kv) ++ lit ":" ++ json_with (snd kv)) l) ++ lit "}"
    end.
  (** html/html_builder.go:32-34: the script element *)
  Definition script_with (v : jv) : gostring := [10%N] ++ lit "      window.grParam = " ++ json_with v ++ [10%N] ++ lit "    ".
End With.
(** the bytes of the script, for data with bytes as strings *)
Definition report_bytes (num_text : Q -> gostring) (v : jv) : bytes := script_with json_string_bytes num_text v.
