(** Texts in the browser.  A JavaScript string is the list of its UTF-16 units; the pages
    count, cut and sort them (client/src).  All other files take such a string as the list
    of its code points.  Strings of JavaScript and how a browser draws them are restated. *)
From Coq Require Import String List NArith ZArith QArith Bool.
From Verif Require Import Base Pi LoadCharts Tooltip.
Import ListNotations.
Local Open Scope nat_scope.
Local Open Scope list_scope.

Notation units := (list N) (only parsing).

(** JavaScript; no lines in /repo: the units of a code point *)
Definition units_of (c : rune) : units :=
  if N.ltb c 65536 then [c] else [(55296 + (c - 65536) / 1024)%N; (56320 + (c - 65536) mod 1024)%N].
(** JavaScript; no lines in /repo: the string of the report's text, read by the browser from
    the UTF-8 file and by JavaScript from the object in it (html/html_builder.go:32-34) *)
Definition utf16 (s : gostring) : units := flat_map units_of s.

(** JavaScript; no lines in /repo: the two kinds of units that stand in pairs *)
Definition is_high (u : N) : bool := (N.leb 55296 u && N.leb u 56319)%bool.
Definition is_low (u : N) : bool := (N.leb 56320 u && N.leb u 57343)%bool.
(** The browser; no lines in /repo: the characters drawn for a string, U+FFFD for each unit
    of a pair that stands alone *)
Fixpoint drawn_text (u : units) : gostring :=
  match u with
  | [] => []
  | h :: r =>
      if is_high h then
        match r with
        | l :: r' => if is_low l then (65536 + (h - 55296) * 1024 + (l - 56320))%N :: drawn_text r' else 65533%N :: drawn_text r
        | [] => [65533%N]
        end
      else if is_low h then 65533%N :: drawn_text r
      else h :: drawn_text r
  end.

(** JavaScript; no lines in /repo: substring(0, n), for a string of any length *)
Definition substring0 (n : nat) (u : units) : units := firstn n u.
(** lib/GrChart.ts:67-73 legendFormatter *)
Definition legend (name : units) : units :=
  if Nat.leb (length name) 20 then name else substring0 20 name ++ lit "...".
(** suggest/mysql/ExplainAnalyzeChart.svelte:33-37, suggest/postgres/ExplainAnalyzeChart.svelte:34-38,
    suggest/hasura/ExplainChart.svelte:34-38 *)
Definition short_units (text : units) : units :=
  let t := trim text in
  if Nat.ltb 50 (length t) then substring0 50 t ++ lit "..." else substring0 50 t.

(** JavaScript; no lines in /repo: a < b for strings, as used by sort() without arguments *)
Fixpoint js_less (a b : units) : bool :=
  match a, b with
  | _, [] => false
  | [], _ :: _ => true
  | x :: a', y :: b' => if N.ltb x y then true else if N.ltb y x then false else js_less a' b'
  end.
(** util/Databases.ts:3-8 getAllDatabase, with strings of units *)
Definition page_databases (srt : list units -> list units) (rows : option (list row)) : list units :=
  match rows with
  | None => []
  | Some rs => srt (uniq (concat (map (fun r => map (fun d => utf16 (dl_name d)) (tl_dbs r)) rs)))
  end.
(** lib/GrChart.ts:67-73 for the series of LoadPropChartSereies.ts:34-41: the names below a
    timeline (DbLoadChart.ts:42-44, DbTokenizedLoadChart.ts:44-46) *)
Definition legends (l : list series) : list units := map (fun s => legend (utf16 (se_name s))) l.
