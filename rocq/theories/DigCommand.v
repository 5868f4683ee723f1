(** The command line that the Performance Insights page offers for a heavy SQL. *)
From Coq Require Import String List NArith Bool.
From Verif Require Import Base.
Import ListNotations.

(** client/src/pages/dig/performance_insights/util/CommandText.ts:1-6 buildCommandText;
    [None] is undefined *)
Definition dig_command (db sql : option gostring) : gostring :=
  let db := match db with Some d => d | None => lit "..." end in
  let query := match sql with Some q => q | None => lit "..." end in
  lit "DB_DATABASE=""" ++ db ++ lit """ gr db suggest -o ""suggest.html"" \" ++ [10%N; 9%N] ++ lit "-q """ ++ query ++ lit """".
