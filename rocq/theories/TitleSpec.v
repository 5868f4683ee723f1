(** What the bars of the timeline should be labelled with. *)
From Coq Require Import String List NArith ZArith QArith Bool Lia Arith.
From Verif Require Import Base Dec ExplainTree ExplainSpec ExplainLineSpec.
Import ListNotations.
Local Open Scope nat_scope.

(** [a] is what stands before the first [sep] in [s]. *)
Definition up_to (sep s a : gostring) : Prop :=
  (exists b, s = a ++ sep ++ b) /\ forall a' b', s = a' ++ sep ++ b' -> length a <= length a'.

(** White space of Unicode *)
Definition white_space (c : rune) : Prop :=
  In c [9; 10; 11; 12; 13; 32; 133; 160; 5760; 8192; 8193; 8194; 8195; 8196; 8197; 8198; 8199; 8200; 8201; 8202;
        8232; 8233; 8239; 8287; 12288]%N.
(** [t] is [s] without the white space around it. *)
Definition stripped (s t : gostring) : Prop :=
  exists a b, s = a ++ t ++ b /\ Forall white_space a /\ Forall white_space b /\
    (forall c r, t = c :: r -> ~ white_space c) /\ (forall c r, t = r ++ [c] -> ~ white_space c).

(** MySQL: what stands before a colon; else up to and with the word join; else what
    stands before the word on; else the first word. *)
Definition mysql_title (desc t : gostring) : Prop :=
  let s := desc ++ lit " " in
  (exists a, up_to (lit ":") s a /\ stripped a t) \/
  (~ occurs (lit ":") s /\
   ((exists a u, up_to (lit " join ") s a /\ stripped a u /\ t = u ++ lit " join") \/
    (~ occurs (lit " join ") s /\
     ((exists a, up_to (lit " on ") s a /\ stripped a t) \/
      (~ occurs (lit " on ") s /\ up_to (lit " ") s t))))).

(** PostgreSQL: the shortest beginning, of at least one character, that is followed by white
    space and the word on or a parenthesis. *)
Definition blank (c : rune) : Prop := In c [9; 10; 12; 13; 32]%N.
Definition pg_stop (r : gostring) : Prop :=
  exists s b, s <> [] /\ Forall blank s /\ (r = s ++ lit "on " ++ b \/ r = s ++ lit "(" ++ b).
Definition pg_title (desc t : gostring) : Prop :=
  let s := desc ++ lit "  (" in
  t <> [] /\ (exists r, s = t ++ r /\ pg_stop r) /\
  forall t' r, s = t' ++ r -> t' <> [] -> pg_stop r -> length t <= length t'.

(** The description stands on one line; it begins with a character other than white space,
    and not with an arrow. *)
Definition mysql_titled (n : mysql_node) : Prop :=
  match mn_desc n with [] => False | c :: _ => ~ blank c end.
Definition pg_titled (n : pg_node) : Prop :=
  match pn_desc n with [] => False | c :: _ => ~ blank c end /\ ~ In nl (pn_desc n) /\ ~ exists b, pn_desc n = lit "->" ++ b.
