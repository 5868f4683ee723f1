(** What the texts of numbers and dates have to say. *)
From Coq Require Import String List NArith ZArith QArith Qabs Bool.
From Verif Require Import Base.
Import ListNotations.
Local Open Scope list_scope.

(** ** Decimal numbers *)
Definition digit (c : rune) : Prop := (48 <= c <= 57)%N.
Definition read_digits (s : gostring) : N := fold_left (fun a c => 10 * a + (c - 48))%N s 0%N.
(** [s] is the number [n] / 10^[d], or its negative, written with [d] places *)
Definition decimal (d : nat) (neg : bool) (n : N) (s : gostring) : Prop :=
  exists whole places, s = (if neg then [45%N] else []) ++ whole ++ (match d with O => [] | _ => 46%N :: places end) /\
    Forall digit (whole ++ places) /\ length places = d /\ (whole = [48%N] \/ exists c r, whole = c :: r /\ c <> 48%N) /\
    read_digits (whole ++ places) = n.

(** ** The Gregorian calendar *)
Definition leap (y : Z) : bool := ((y mod 4 =? 0) && (negb (y mod 100 =? 0) || (y mod 400 =? 0)))%Z.
Definition month_length (y m : Z) : Z :=
  match m with 2 => if leap y then 29 else 28 | 4 | 6 | 9 | 11 => 30 | _ => 31 end%Z.
(** the day after; (year, month, day) *)
Inductive next_day : Z * Z * Z -> Z * Z * Z -> Prop :=
| nd_day : forall y m d, (d < month_length y m)%Z -> next_day (y, m, d) (y, m, d + 1)%Z
| nd_month : forall y m, (m < 12)%Z -> next_day (y, m, month_length y m) (y, m + 1, 1)%Z
| nd_year : forall y, next_day (y, 12, 31)%Z (y + 1, 1, 1)%Z.
(** [date] gives the day of the year, month and day of a number of days since 1970 *)
Definition calendar (date : Z -> Z * Z * Z) : Prop :=
  date 0%Z = (1970, 1, 1)%Z /\ forall n, next_day (date n) (date (n + 1)%Z).
Definition weekdays (week : Z -> string) : Prop :=
  week 0%Z = "Thu"%string /\ week 1%Z = "Fri"%string /\ week 2%Z = "Sat"%string /\ week 3%Z = "Sun"%string /\
  week 4%Z = "Mon"%string /\ week 5%Z = "Tue"%string /\ week 6%Z = "Wed"%string /\ forall n, week (n + 7)%Z = week n.
Definition month_name (m : Z) : string :=
  match m with 1 => "Jan" | 2 => "Feb" | 3 => "Mar" | 4 => "Apr" | 5 => "May" | 6 => "Jun" | 7 => "Jul" | 8 => "Aug" | 9 => "Sep"
             | 10 => "Oct" | 11 => "Nov" | _ => "Dec" end%Z%string.
(** a number of exactly [k] digits *)
Definition in_digits (k : nat) (n : Z) (s : gostring) : Prop := length s = k /\ Forall digit s /\ Z.of_N (read_digits s) = n.
(** The text of the [sec]-th second since 1970, in the years 0 to 9999 *)
Definition utc_text (date : Z -> Z * Z * Z) (week : Z -> string) (sec : Z) (s : gostring) : Prop :=
  exists n h mi se y m d yt dt ht mit st, sec = (n * 86400 + h * 3600 + mi * 60 + se)%Z /\ (0 <= h < 24)%Z /\ (0 <= mi < 60)%Z /\ (0 <= se < 60)%Z /\
    date n = (y, m, d) /\ in_digits 4 y yt /\ in_digits 2 d dt /\ in_digits 2 h ht /\ in_digits 2 mi mit /\ in_digits 2 se st /\
    s = of_string (week n) ++ of_string ", " ++ dt ++ of_string " " ++ of_string (month_name m) ++ of_string " " ++ yt ++ of_string " " ++
        ht ++ of_string ":" ++ mit ++ of_string ":" ++ st ++ of_string " GMT".
