(** UTF-8 as in RFC 3629 and the Unicode standard (table 3-6), and bytes that are not. *)
From Coq Require Import String List NArith ZArith QArith Bool.
From Verif Require Import Base Json.
Import ListNotations.

(** the bytes of a code point *)
Inductive char_bytes : N -> list N -> Prop :=
| cb_one : forall c, (c < 128)%N -> char_bytes c [c]
| cb_two : forall c x y, (c = x * 64 + y)%N -> (y < 64)%N -> (128 <= c < 2048)%N -> char_bytes c [(192 + x)%N; (128 + y)%N]
| cb_three : forall c x y z, (c = (x * 64 + y) * 64 + z)%N -> (y < 64)%N -> (z < 64)%N -> (2048 <= c < 65536)%N ->
    ~ (55296 <= c <= 57343)%N -> char_bytes c [(224 + x)%N; (128 + y)%N; (128 + z)%N]
| cb_four : forall c x y z t, (c = ((x * 64 + y) * 64 + z) * 64 + t)%N -> (y < 64)%N -> (z < 64)%N -> (t < 64)%N -> (65536 <= c < 1114112)%N ->
    char_bytes c [(240 + x)%N; (128 + y)%N; (128 + z)%N; (128 + t)%N].
(** the bytes of a text *)
Inductive text_bytes : list N -> list N -> Prop :=
| tb_nil : text_bytes [] []
| tb_cons : forall c b t bs, char_bytes c b -> text_bytes t bs -> text_bytes (c :: t) (b ++ bs).
(** code points that are characters: up to U+10FFFF without the surrogates *)
Definition scalar (c : N) : Prop := (c < 1114112)%N /\ ~ (55296 <= c <= 57343)%N.
(** any bytes read as a text: each byte that starts no code point is U+FFFD *)
Inductive repaired : list N -> list N -> Prop :=
| rp_nil : repaired [] []
| rp_char : forall c b bs t, char_bytes c b -> repaired bs t -> repaired (b ++ bs) (c :: t)
| rp_other : forall b bs t, (forall c x y, char_bytes c x -> b :: bs <> x ++ y) -> repaired bs t -> repaired (b :: bs) (65533%N :: t).
(** the same data with all its strings read as texts *)
Inductive repaired_value : jv -> jv -> Prop :=
| rv_null : repaired_value JNull JNull
| rv_bool : forall b, repaired_value (JBool b) (JBool b)
| rv_num : forall q, repaired_value (JNum q) (JNum q)
| rv_str : forall b t, repaired b t -> repaired_value (JStr b) (JStr t)
| rv_arr : forall l l', Forall2 repaired_value l l' -> repaired_value (JArr l) (JArr l')
| rv_obj : forall l l', Forall2 (fun x y => repaired (fst x) (fst y) /\ repaired_value (snd x) (snd y)) l l' -> repaired_value (JObj l) (JObj l').
(** data whose strings are bytes, and the same data with texts *)
Inductive value_bytes : jv -> jv -> Prop :=
| vb_null : value_bytes JNull JNull
| vb_bool : forall b, value_bytes (JBool b) (JBool b)
| vb_num : forall q, value_bytes (JNum q) (JNum q)
| vb_str : forall t b, text_bytes t b -> value_bytes (JStr t) (JStr b)
| vb_arr : forall l l', Forall2 value_bytes l l' -> value_bytes (JArr l) (JArr l')
| vb_obj : forall l l', Forall2 (fun x y => text_bytes (fst x) (fst y) /\ value_bytes (snd x) (snd y)) l l' -> value_bytes (JObj l) (JObj l').
(** lexicographic order *)
Inductive lex_less : list N -> list N -> Prop :=
| ll_end : forall c s, lex_less [] (c :: s)
| ll_here : forall c d s t, (c < d)%N -> lex_less (c :: s) (d :: t)
| ll_next : forall c s t, lex_less s t -> lex_less (c :: s) (c :: t).
Definition part_of {A} (p s : list A) : Prop := exists a z, s = a ++ p ++ z.
Definition starts {A} (p s : list A) : Prop := exists z, s = p ++ z.
Definition finishes {A} (p s : list A) : Prop := exists a, s = a ++ p.
