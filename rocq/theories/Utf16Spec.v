(** UTF-16 as in the Unicode standard (table 3-5), and what is seen of a string. *)
From Coq Require Import String List NArith ZArith QArith Bool.
From Verif Require Import Base.
From Verif Require Utf8Spec.
Import ListNotations.
Local Open Scope list_scope.

(** the units of a character *)
Inductive char_units : N -> list N -> Prop :=
| cu_one : forall c, (c < 65536)%N -> char_units c [c]
| cu_two : forall c x y, (c = 65536 + x * 1024 + y)%N -> (x < 1024)%N -> (y < 1024)%N -> char_units c [(55296 + x)%N; (56320 + y)%N].
Inductive text_units : list N -> list N -> Prop :=
| tu_nil : text_units [] []
| tu_cons : forall c u t us, char_units c u -> text_units t us -> text_units (c :: t) (u ++ us).
(** texts of characters: no surrogates, nothing beyond U+10FFFF *)
Definition proper (s : list N) : Prop := Forall Utf8Spec.scalar s.
(** what is seen of any units: characters, U+FFFD for a unit that starts no character *)
Inductive seen : list N -> list N -> Prop :=
| sn_nil : seen [] []
| sn_char : forall c u us t, Utf8Spec.scalar c -> char_units c u -> seen us t -> seen (u ++ us) (c :: t)
| sn_other : forall u us t, (forall c x y, Utf8Spec.scalar c -> char_units c x -> u :: us <> x ++ y) -> seen us t -> seen (u :: us) (65533%N :: t).
(** the first [n] units of a text, seen: its first characters with together [n] units, or
    those with together [n - 1] and U+FFFD for a character that is cut in two *)
Definition cut (n : nat) (s q : list N) : Prop :=
  exists p c r u, s = p ++ c :: r /\ text_units p u /\
    ((length u = n /\ q = p) \/ (S (length u) = n /\ (65536 <= c)%N /\ q = p ++ [65533%N])).
(** characters in the order of their units: those with two units come after U+D7FF and
    before U+E000 *)
Definition before (c d : N) : Prop :=
  if N.ltb c 65536 then if N.ltb d 65536 then (c < d)%N else (c < 57344)%N
  else if N.ltb d 65536 then (57344 <= d)%N else (c < d)%N.
Inductive text_before : list N -> list N -> Prop :=
| bf_end : forall c s, text_before [] (c :: s)
| bf_here : forall c d s t, before c d -> text_before (c :: s) (d :: t)
| bf_next : forall c s t, text_before s t -> text_before (c :: s) (c :: t).
