(** The floating point numbers of Go (float64) and JavaScript: binary64 of IEEE 754.  The
    other files compute with rationals; here results are rounded.  There are no infinities
    and no NaN: values beyond the largest number are outside, see FloatsSpec. *)
From Coq Require Import String List NArith ZArith QArith Qpower Qround Qabs Bool Lia Arith.
From Verif Require Import Base Dec.
Import ListNotations.
Local Open Scope Q_scope.

(** ** Rounding.  No lines in /repo: IEEE 754, roundTiesToEven *)
(** the nearest whole number *)
Definition round_even (s : Q) : Z :=
  let f := Qfloor s in
  match Qcompare (s - inject_Z f) (1 # 2) with
  | Lt => f
  | Gt => (f + 1)%Z
  | Eq => if Z.even f then f else (f + 1)%Z
  end.
(** the k with 2^k <= x < 2^(k+1), for a positive x *)
Definition binade (x : Q) : Z :=
  let k := (Z.log2 (Qnum x) - Z.log2 (Zpos (Qden x)))%Z in
  if Qle_bool (Qpower (2 # 1) k) x then k else (k - 1)%Z.
(** 53 binary places, but no finer than 2^-1074 *)
Definition fl_pos (x : Q) : Q :=
  let e := Z.max (binade x - 52) (-1074) in inject_Z (round_even (x / Qpower (2 # 1) e)) * Qpower (2 # 1) e.
Definition fl (x : Q) : Q :=
  match Qcompare x 0 with Eq => 0 | Gt => fl_pos x | Lt => - fl_pos (- x) end.

(** ** Percentages, with any rounding *)
(** examiner.go:63, ExaminationIndexResult.ts:11-12: (1 - t/o) * 100 *)
Definition f_reduction (rnd : Q -> Q) (t o : Z) : Q :=
  rnd (rnd (1 - rnd (rnd (inject_Z t) / rnd (inject_Z o))) * 100).
(** fmt's %.1f of a float64 *)
Definition one_place (x : Q) : gostring :=
  let n := Z.to_N (round_even (Qabs x * 10)) in
  (if Qle_bool 0 x then [] else lit "-") ++ dec_of_N (n / 10) ++ lit "." ++ dec_of_N (n mod 10).
(** examiner.go:61-64.  A time of 0 ms makes the quotient infinite or no number. *)
Definition f_reduced_text (rnd : Q -> Q) (t o : Z) : gostring :=
  if Z.eqb o 0 then
    if Z.eqb t 0 then lit "NaN" else if Z.ltb 0 t then lit "-Inf" else lit "+Inf"
  else one_place (f_reduction rnd t o).
