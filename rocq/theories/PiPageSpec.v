(** What the Performance Insights page should show and name. *)
From Coq Require Import String List NArith ZArith QArith Bool Lia Arith.
From Verif Require Import Base Pi LoadCharts LoadChartsSpec PiPage.
Import ListNotations.
Local Open Scope nat_scope.

Definition timeline (v : view) : Prop := v = Timeline \/ v = TokTimeline.
(** The rows have the database. *)
Definition has_database (rows : list row) (db : gostring) : Prop :=
  exists r d, In r rows /\ In d (tl_dbs r) /\ dl_name d = db.
(** A bar for a load of a checked database; a timeline shows loads of half a per cent or
    more. *)
Definition bar_for (v : view) (rows : list row) (checked : list gostring) (p : pick) : Prop :=
  In (pk_db p) checked /\
  exists r l, In r rows /\ row_load r (pk_db p) (pk_sql p) l /\ sl_tok l = pk_tok p /\
    (timeline v -> (1 # 200 <= sl_max l)%Q).
(** A plain SQL that was run in the form of a tokenized one. *)
Definition plain_of (raws : list row) (tok : gostring) (x : raw_load) : Prop :=
  raw_of raws x /\ sl_tok (rw_load x) = tok.
