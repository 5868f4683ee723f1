(** Texts of numbers and dates on the pages of Performance Insights: what Tooltip.v has as
    parameters, with float64 numbers.  Numbers of 10^21 and more are outside the model. *)
From Coq Require Import String List NArith ZArith QArith Qround Qabs Bool.
From Verif Require Import Base Dec Pi LoadCharts.
Import ListNotations.
Local Open Scope list_scope.

(** The last [d] digits of [n] *)
(** ECMAScript, Number.prototype.toFixed steps 9-11; no lines in /repo *)
Fixpoint padded (d : nat) (n : N) : gostring :=
  match d with O => [] | S d' => padded d' (n / 10) ++ [(48 + n mod 10)%N] end.
(** ECMAScript, Number.prototype.toFixed: the nearest number with [d] places, of two the
    larger.  Used at LoadTooltip.ts:19,43, HeavyTokenizedSqlTimeline.svelte:105,
    HeaviestTokenizedSqlRanking.svelte:105, DbLoadChart.ts:101 and the other charts *)
Definition to_fixed (d : nat) (x : Q) : gostring :=
  let n := Z.to_N (Qfloor (Qabs x * inject_Z (10 ^ Z.of_nat d) + (1 # 2))) in
  (if Qle_bool 0 x then [] else lit "-") ++ dec_of_N (n / 10 ^ N.of_nat d) ++
  match d with O => [] | _ => lit "." ++ padded d n end.
(** DbLoadChart.ts:100-102 yaxisLabelsFormatter, the same in the other three charts *)
Definition yaxis_label (x : Q) : gostring := to_fixed 0 x.

(** ECMAScript, Day, YearFromTime, MonthFromTime, DateFromTime; no lines in /repo.  The
    year begins in March here, so that the leap day is its last. *)
Record date := { d_year : Z; d_month : Z; d_day : Z }.
Definition date_of_day (z : Z) : date :=
  let z := (z + 719468)%Z in
  let era := (z / 146097)%Z in
  let doe := (z mod 146097)%Z in
  let yoe := ((doe - doe / 1460 + doe / 36524 - doe / 146096) / 365)%Z in
  let doy := (doe - (365 * yoe + yoe / 4 - yoe / 100))%Z in
  let mp := ((5 * doy + 2) / 153)%Z in
  let m := if Z.ltb mp 10 then (mp + 3)%Z else (mp - 9)%Z in
  {| d_year := (yoe + era * 400 + if Z.leb m 2 then 1 else 0)%Z; d_month := m; d_day := (doy - (153 * mp + 2) / 5 + 1)%Z |}.
(** ECMAScript, WeekDay: 1 January 1970 was a Thursday *)
Definition week_day (z : Z) : Z := ((z + 4) mod 7)%Z.
Definition week_names : list gostring := map of_string ["Sun"; "Mon"; "Tue"; "Wed"; "Thu"; "Fri"; "Sat"]%string.
Definition month_names : list gostring :=
  map of_string ["Jan"; "Feb"; "Mar"; "Apr"; "May"; "Jun"; "Jul"; "Aug"; "Sep"; "Oct"; "Nov"; "Dec"]%string.
Definition two_digits (z : Z) : gostring := padded 2 (Z.to_N z).
(** ECMAScript, ToUTCString: at least four digits of the year *)
Definition year_text (y : Z) : gostring :=
  (if Z.ltb y 0 then lit "-" else []) ++
  (if Z.ltb (Z.abs y) 10000 then padded 4 (Z.to_N (Z.abs y)) else dec_of_N (Z.to_N (Z.abs y))).
(** ECMAScript, Date.prototype.toUTCString of milliseconds; used at LoadTooltip.ts:14,
    HeavyTokenizedSqlTimeline.svelte:108, HeaviestTokenizedSqlRanking.svelte:108 *)
Definition utc_string (ms : Z) : gostring :=
  let day := (ms / 86400000)%Z in
  let s := (ms / 1000 mod 86400)%Z in
  let d := date_of_day day in
  nth (Z.to_nat (week_day day)) week_names [] ++ lit ", " ++ two_digits (d_day d) ++ lit " " ++
  nth (Z.to_nat (d_month d - 1)) month_names [] ++ lit " " ++ year_text (d_year d) ++ lit " " ++
  two_digits (s / 3600) ++ lit ":" ++ two_digits (s / 60 mod 60) ++ lit ":" ++ two_digits (s mod 60) ++ lit " GMT".

(** The table of plain SQLs: database, load, date and SQL of a line *)
(** HeavyTokenizedSqlTimeline.svelte:92-112, HeaviestTokenizedSqlRanking.svelte:92-112; the
    radio button and tags are left out *)
Definition raw_line (rnd : Q -> Q) (r : raw_load) : list gostring :=
  [ rw_db r; to_fixed 2 (rnd (sl_max (rw_load r) * 100)%Q) ++ lit "%"; utc_string (rw_date r); sl_sql (rw_load r) ].
Definition raw_table (rnd : Q -> Q) (rs : list raw_load) : list (list gostring) :=
  match rs with [] => [ [lit "No data"] ] | _ => map (raw_line rnd) rs end.
