(** What the catalogs say, apart from any query. *)
From Coq Require Import String List NArith ZArith Bool Lia Arith Sorting Permutation.
From Verif Require Import Base IndexText IndexBuild TableFields Existing Catalog.
Import ListNotations.

(** * PostgreSQL *)
(** The keys of the catalogs. *)
Record pg_sound (cat : pg_catalog) : Prop := {
  ps_oid : NoDup (map c_oid (classes cat));
  ps_name : NoDup (map (fun c => (c_ns c, c_name c)) (classes cat));
  ps_ns : NoDup (map n_oid (namespaces cat));
  ps_ns_name : NoDup (map n_name (namespaces cat));
  ps_num : NoDup (map (fun a => (a_rel a, a_num a)) (attributes cat));
  ps_index : NoDup (map x_id (indexes cat)) }.
Definition in_schema (cat : pg_catalog) (schema : gostring) (c : pg_class) : Prop :=
  exists n, In n (namespaces cat) /\ n_oid n = c_ns c /\ n_name n = schema.
(** an ordinary table *)
Definition pg_table (cat : pg_catalog) (schema t : gostring) (o : Z) : Prop :=
  exists c, In c (classes cat) /\ c_name c = t /\ c_oid c = o /\ c_kind c = lit "r" /\ in_schema cat schema c.
Definition pg_column (cat : pg_catalog) (o : Z) (name : gostring) (num : Z) : Prop :=
  (0 <= num)%Z /\ exists a, In a (attributes cat) /\ a_rel a = o /\ a_name a = name /\ a_num a = num.
Definition pg_has_index (cat : pg_catalog) (o num : Z) (x : pg_index) : Prop :=
  In x (indexes cat) /\ x_rel x = o /\ In num (x_key x).
(** the schema read for a table, [nums] being the numbers of its columns *)
Record pg_schema_of (cat : pg_catalog) (o : Z) (ts : table_schema) (nums : list Z) : Prop := {
  pgs_cols : Forall2 (pg_column cat o) (ts_cols ts) nums;
  pgs_order : StronglySorted Z.le nums;
  (* as often as there are indexes with it, but at least once *)
  pgs_count : forall name num l, pg_column cat o name num ->
    NoDup l -> (forall x, In x l <-> pg_has_index cat o num x) ->
    count_occ Z.eq_dec nums num = Nat.max 1 (length l);
  pgs_pks : forall c, In c (ts_pks ts) <-> exists num x, pg_column cat o c num /\ pg_has_index cat o num x /\ x_primary x = true }.
(** an index of a table of the schema *)
Definition pg_index_of (cat : pg_catalog) (schema t : gostring) (x : pg_index) : Prop :=
  In x (indexes cat) /\
  (exists i, In i (classes cat) /\ c_oid i = x_id x /\ in_schema cat schema i) /\
  (exists c, In c (classes cat) /\ c_oid c = x_rel x /\ c_name c = t).

(** * MySQL *)
Record my_sound (cat : my_catalog) : Prop := {
  ms_col_key : NoDup (map (fun c => (mc_schema c, mc_table c, mc_pos c)) (my_columns cat));
  ms_stat_key : NoDup (map (fun s => (ms_schema s, ms_table s, ms_index s, ms_seq s)) (my_stats cat));
  ms_named : forall s, In s (my_stats cat) -> ms_table s <> [] }.
Definition my_column_of (cat : my_catalog) (schema t : gostring) (c : my_column) : Prop :=
  In c (my_columns cat) /\ mc_schema c = schema /\ mc_table c = t.
(** the schema read for a table *)
Definition my_schema_of (cat : my_catalog) (schema t : gostring) (ts : table_schema) (cols : list my_column) : Prop :=
  (forall c, In c cols <-> my_column_of cat schema t c) /\ NoDup cols /\
  StronglySorted (fun a b => (mc_pos a < mc_pos b)%Z) cols /\
  ts_cols ts = map mc_name cols /\
  ts_pks ts = map mc_name (filter (fun c => seqb (mc_key c) (lit "PRI")) cols).
Definition my_part_of (cat : my_catalog) (schema t i : gostring) (s : my_stat) : Prop :=
  In s (my_stats cat) /\ ms_schema s = schema /\ ms_table s = t /\ ms_index s = i.
(** the indexes read: one for each, with its columns in order *)
Definition my_indexes_of (cat : my_catalog) (schema : gostring) (tables : list gostring) (its : list index_target)
    (gs : list ((gostring * gostring) * list my_stat)) : Prop :=
  (forall t i, In (t, i) (map fst gs) <-> In t tables /\ exists s, my_part_of cat schema t i s) /\
  NoDup (map fst gs) /\
  Forall2 (fun it g => it_table it = fst (fst g) /\
      (forall s, In s (snd g) <-> my_part_of cat schema (fst (fst g)) (snd (fst g)) s) /\
      StronglySorted (fun a b => (ms_seq a < ms_seq b)%Z) (snd g) /\
      map Some (it_cols it) = map ms_col (snd g)) its gs.
(** Names the server takes for the same are the same: in the schema, the tables asked for,
    the indexes of one table. *)
Record my_names_apart (coll : gostring -> gostring -> comparison) (cat : my_catalog) (schema : gostring) (tables : list gostring) : Prop := {
  na_refl : forall a, coll a a = Eq;
  na_opp : forall a b, coll b a = CompOpp (coll a b);
  na_schema : forall c, In c (my_columns cat) -> coll (mc_schema c) schema = Eq -> mc_schema c = schema;
  na_table : forall c t, In c (my_columns cat) -> In t tables -> coll (mc_table c) t = Eq -> mc_table c = t;
  na_stat_schema : forall s, In s (my_stats cat) -> coll (ms_schema s) schema = Eq -> ms_schema s = schema;
  na_stat_table : forall s t, In s (my_stats cat) -> In t tables -> coll (ms_table s) t = Eq -> ms_table s = t;
  na_tables : forall t t', In t tables -> In t' tables -> coll t t' = Eq -> t = t';
  na_index : forall s s', In s (my_stats cat) -> In s' (my_stats cat) -> ms_schema s = ms_schema s' -> ms_table s = ms_table s' ->
    coll (ms_index s) (ms_index s') = Eq -> ms_index s = ms_index s' }.
