(** C141: the charts of the Performance Insights page and the objects that JavaScript uses
    as maps. *)
From Coq Require Import String List NArith ZArith QArith Bool Lia Arith Permutation.
From Verif Require Import Base IndexBuild Pi LoadCharts LoadChartsSpec LoadChartsProofs LoadChartsProperties JsCharts JsChartsSpec JsChartsProofs JsRankingProofs.
Import ListNotations.
Local Open Scope nat_scope.

(** If no checked database has a name that every object has, a timeline is that of
    LoadCharts.v whatever was drawn before, unless an SQL to be drawn has such a name:
    then there is a TypeError and no chart. *)
Theorem timeline_objects : forall member targets threshold rows h, (forall db, In db targets -> ~ on_every_object db) ->
  ((exists r db sql l, In r rows /\ drawn_load targets threshold r db sql l /\ on_every_object sql) ->
     js_load_series member targets threshold rows h = Panic) /\
  ((forall r db sql l, In r rows -> drawn_load targets threshold r db sql l -> ~ on_every_object sql) ->
     exists h', js_load_series member targets threshold rows h = Ok (h', load_series targets threshold rows) /\
       ph_series h' = ph_series h ++ load_series targets threshold rows /\ ph_left h' = ph_left h).
Proof.
  intros member targets threshold rows h C.
  assert (forall t, In t targets -> inherited t = false) as C'.
  { intros t I. specialize (C t I). rewrite <- inherited_spec in C. destruct (inherited t); [now elim C|reflexivity]. }
  assert (held h {| dr_heap := h; dr_known := []; dr_out := [] |} []) as H0.
  { split; [cbn; now rewrite app_nil_r|]. split; [reflexivity|]. split; [reflexivity|]. split; [reflexivity|intros s []]. }
  assert (forall r, bad_row targets threshold r <-> exists db sql l, drawn_load targets threshold r db sql l /\ on_every_object sql) as BAD.
  { intros r. split.
    - intros (x & I & T & l & J & Q1 & Q2). exists (dl_name x), (sl_sql l), l. apply includes_in in T. apply inherited_spec in Q2.
      split; [|exact Q2]. split; [exists x; auto|]. split; [exact T|]. now apply qlt_ge.
    - intros (db & sql & l & ((x & I & E1 & J & E2) & T & Q1) & Q2). exists x. split; [exact I|]. split; [apply includes_in; now rewrite E1|].
      exists l. split; [exact J|]. split; [now apply qlt_ge|]. apply inherited_spec. now rewrite E2. }
  destruct (rows_held member targets threshold h C' rows 0 _ _ H0) as [B G]. unfold js_load_series. split.
  - intros (r & db & sql & l & I & D & O). rewrite B; [reflexivity|]. exists r. split; [exact I|]. apply BAD. now exists db, sql, l.
  - intros N. destruct G as (d & -> & H).
    { intros r I BR. apply BAD in BR as (db & sql & l & D & O). exact (N r db sql l I D O). }
    cbn [obind]. exists (dr_heap d). split; [now rewrite (held_shows h d _ H)|]. destruct H as (H1 & H2 & _). split; [exact H1|exact H2].
Qed.

Lemma rank_eq_dec : forall a b : rank, {a = b} + {a <> b}.
Proof.
  intros a b. decide equality; try apply Z.eq_dec; try apply (list_eq_dec N.eq_dec).
  decide equality; [apply Pos.eq_dec|apply Z.eq_dec].
Qed.
(** A ranking is that of the table without the databases and SQLs with such names, in
    whatever state earlier charts left the page. *)
Theorem ranking_objects : forall member srt count targets rows h,
  (forall r db sql l, In r rows -> row_load r db sql l -> In db targets -> on_every_object db -> member db sql <> Some true) ->
  exists keys rows' h', (forall l, Permutation (keys l) l) /\ plain_rows rows rows' /\
    js_ranking member srt count targets rows h = Ok (h', ranking keys srt count targets rows') /\ ph_series h' = ph_series h.
Proof.
  intros member srt count targets rows h M.
  destruct (rows_ranked member targets rows {| rs_left := ph_left h; rs_props := [] |} [] ranked_nil) as (s & E & R).
  { intros r x I J T l K ID. apply (M r (dl_name x) (sl_sql l) l I); [exists x; auto|exact T|now apply inherited_spec]. }
  set (ps := fold_left (rank_row targets) (map keep_row rows) []) in *.
  exists (fun l => if list_eq_dec rank_eq_dec l ps then all_props (rs_props s) else l), (map keep_row rows),
    {| ph_series := ph_series h; ph_left := rs_left s |}.
  split; [|split; [|split]].
  - intros l. destruct (list_eq_dec rank_eq_dec l ps) as [-> |]; [now apply ranked_entries|reflexivity].
  - apply keep_rows_plain.
  - unfold js_ranking, ranking. rewrite E. cbn [obind]. fold ps. destruct (list_eq_dec rank_eq_dec ps ps) as [_ | N]; [reflexivity|now elim N].
  - reflexivity.
Qed.

(** The SQLs of a tokenized SQL are those of LoadCharts.v, unless an id fetched has such a
    name: then opening the page is a TypeError. *)
Lemma put_upsert : forall m x l, own (sl_tok (rw_load x)) m = Some l -> put (sl_tok (rw_load x)) (l ++ [x]) m = raw_add m x.
Proof.
  intros m x l. unfold own, raw_add. induction m as [|e m IH]; cbn [find put upsert]; [discriminate|].
  destruct (seqb (fst e) (sl_tok (rw_load x))) eqn:E.
  - intros H. cbn in H. injection H as <-. apply seqb_eq in E. now rewrite E.
  - intros H. now rewrite IH.
Qed.
Lemma put_upsert_new : forall m x, own (sl_tok (rw_load x)) m = None -> put (sl_tok (rw_load x)) [x] m = raw_add m x.
Proof.
  intros m x. unfold own, raw_add. induction m as [|e m IH]; cbn [find put upsert]; [reflexivity|].
  destruct (seqb (fst e) (sl_tok (rw_load x))) eqn:E; [discriminate|]. intros H. now rewrite IH.
Qed.
Definition no_bad_tok (m : list (gostring * list raw_load)) : Prop := forall tok, inherited tok = true -> own tok m = None.
Lemma raw_step : forall m x, no_bad_tok m ->
  (inherited (sl_tok (rw_load x)) = true -> js_raw_add m x = Panic) /\
  (inherited (sl_tok (rw_load x)) = false -> js_raw_add m x = Ok (raw_add m x) /\ no_bad_tok (raw_add m x)).
Proof.
  intros m x B. unfold js_raw_add. split.
  - intros I. now rewrite (B _ I), I.
  - intros I. assert (forall l, no_bad_tok (put (sl_tok (rw_load x)) l m)) as K.
    { intros l tok T. rewrite own_put. destruct (seqb (sl_tok (rw_load x)) tok) eqn:E; [apply seqb_eq in E; congruence|now apply B]. }
    destruct (own (sl_tok (rw_load x)) m) as [l|] eqn:O; [rewrite <- (put_upsert _ _ _ O)|rewrite I, <- (put_upsert_new _ _ O)]; split; auto.
Qed.
Lemma ofold_step : forall A B (P : A -> Prop) (bad : B -> Prop) (f : A -> B -> outcome A) (g : A -> B -> A) l a, P a ->
  (forall b, bad b \/ ~ bad b) -> (forall a b, P a -> (bad b -> f a b = Panic) /\ (~ bad b -> f a b = Ok (g a b) /\ P (g a b))) ->
  ((exists b, In b l /\ bad b) -> ofold f l a = Panic) /\
  (~ (exists b, In b l /\ bad b) -> ofold f l a = Ok (fold_left g l a) /\ P (fold_left g l a)).
Proof.
  intros A B P bad f g l a HP D S. revert a HP. induction l as [|b l IH]; intros a HP; cbn [ofold fold_left].
  - split; [intros (b & [] & _)|auto].
  - destruct (S a b HP) as [S1 S2]. destruct (D b) as [Y | N].
    + rewrite (S1 Y). split; [reflexivity|]. intros N. elim N. exists b. split; [now left|exact Y].
    + destruct (S2 N) as [-> HP']. cbn [obind]. destruct (IH _ HP') as [I1 I2]. split.
      * intros (b' & [<- | I] & Y); [contradiction|]. apply I1. now exists b'.
      * intros NE. apply I2. intros (b' & I & Y). apply NE. exists b'. split; [now right|exact Y].
Qed.
Theorem raw_loads_objects : forall srt rows size tok,
  ((exists db l, In (db, l) (table_loads rows) /\ on_every_object (sl_tok l)) -> js_create_raw_loads rows = Panic) /\
  ((forall db l, In (db, l) (table_loads rows) -> ~ on_every_object (sl_tok l)) ->
     exists m, js_create_raw_loads rows = Ok m /\ js_pick_raw_loads srt m size tok = pick_raw_loads srt (create_raw_loads rows) size tok).
Proof.
  intros srt rows size tok. unfold js_create_raw_loads, create_raw_loads.
  set (badl := fun l : load => inherited (sl_tok l) = true). set (badd := fun d : @db_load Q => exists l, In l (dl_sqls d) /\ badl l).
  set (badr := fun r : row => exists d, In d (tl_dbs r) /\ badd d).
  assert (forall l, badl l \/ ~ badl l) as DL by (intros l; unfold badl; destruct (inherited _); [now left|right; discriminate]).
  assert (forall d, badd d \/ ~ badd d) as DD.
  { intros d. destruct (some_dec _ badl (dl_sqls d) DL) as [E | N]; [now left|right]. intros (l & I & B). exact (N l I B). }
  assert (forall r, badr r \/ ~ badr r) as DR.
  { intros r. destruct (some_dec _ badd (tl_dbs r) DD) as [E | N]; [now left|right]. intros (d & I & B). exact (N d I B). }
  match goal with |- (_ -> ofold ?f rows [] = _) /\ _ => destruct (ofold_step _ _ no_bad_tok badr f
    (fun m r => fold_left (fun m d => fold_left (fun m l => raw_add m {| rw_db := dl_name d; rw_load := l; rw_date := row_date r |}) (dl_sqls d) m) (tl_dbs r) m)
    rows []) as [F1 F2] end; [intros t _; reflexivity|exact DR| |].
  { intros m r B. apply ofold_step; [exact B|exact DD|]. clear m B. intros m d B. apply ofold_step; [exact B|exact DL|]. clear m B. intros m l B.
    destruct (raw_step m {| rw_db := dl_name d; rw_load := l; rw_date := row_date r |} B) as [S1 S2]. cbn [rw_load] in S1, S2.
    split; [exact S1|]. intros N. apply S2. unfold badl in N. now destruct (inherited (sl_tok l)). }
  assert (forall l, In l (map snd (table_loads rows)) <-> exists r d, In r rows /\ In d (tl_dbs r) /\ In l (dl_sqls d)) as TL.
  { intros l. unfold table_loads. rewrite in_map_iff. split.
    - intros ((db & l') & E & I). cbn [snd] in E. subst l'. apply in_flat_map in I as (r & I1 & I2). apply in_flat_map in I2 as (d & I2 & I3).
      apply in_map_iff in I3 as (l' & E & I3). injection E as _ ->. now exists r, d.
    - intros (r & d & I1 & I2 & I3). exists (dl_name d, l). split; [reflexivity|]. apply in_flat_map. exists r. split; [exact I1|].
      apply in_flat_map. exists d. split; [exact I2|]. apply in_map_iff. now exists l. }
  split.
  - intros (db & l & I & O). apply F1. apply (in_map snd) in I. cbn [snd] in I. apply TL in I as (r & d & I1 & I2 & I3).
    exists r. split; [exact I1|]. exists d. split; [exact I2|]. exists l. split; [exact I3|]. now apply inherited_spec.
  - intros N. destruct F2 as [-> _].
    { intros (r & I1 & d & I2 & l & I3 & B). assert (In l (map snd (table_loads rows))) as I by (apply TL; now exists r, d).
      apply in_map_iff in I as ((db & l') & E & I). cbn [snd] in E. subst l'. apply (N db l I). now apply inherited_spec. }
    eexists. split; [reflexivity|]. unfold js_pick_raw_loads, pick_raw_loads, own. destruct (find _ _); reflexivity.
Qed.

(** ** A database called constructor *)
(** is a valid identifier of an RDS instance.  Its timeline is drawn once; drawn again it
    is empty, and it is in no ranking. *)
Definition ctor_rows : list row :=
  [ {| tl_time := ex_hour 100; tl_dbs := [ {| dl_name := lit "constructor"; dl_sqls := [ex_load "SELECT 1" 1 1 "t1"] |};
                                           {| dl_name := lit "b"; dl_sqls := [ex_load "SELECT 2" 1 1 "t2"; ex_load "10" 1 1 "t3"; ex_load "9" 1 1 "t4"] |} ] |} ].
Definition fresh_page : page_heap := {| ph_series := []; ph_left := [] |}.
Definition no_member (db sql : gostring) : option bool := None.
Lemma ctor_rows_distinct : Forall distinct_row ctor_rows.
Proof.
  repeat constructor; cbn; intuition discriminate.
Qed.
Theorem drawn_again_refuted :
  ~ (forall targets threshold rows h h1 ss, Forall distinct_row rows -> js_load_series no_member targets threshold rows h = Ok (h1, ss) ->
       exists h2, js_load_series no_member targets threshold rows h1 = Ok (h2, ss)).
Proof.
  intros H. destruct (js_load_series no_member [lit "constructor"] (5 # 1000) ctor_rows fresh_page) as [[h1 ss]|m|] eqn:E; try (vm_compute in E; discriminate).
  destruct (H _ _ _ _ _ _ ctor_rows_distinct E) as (h2 & E2). vm_compute in E. injection E as <- <-. vm_compute in E2. discriminate.
Qed.
Theorem every_database_ranked_refuted :
  ~ (forall targets rows h h' rs db l, is_sort rank_less (sort_by rank_less) -> js_ranking no_member (sort_by rank_less) 20 targets rows h = Ok (h', rs) ->
       In db targets -> In (db, l) (table_loads rows) -> length rs < 20 -> exists p, In p rs /\ rk_db p = db).
Proof.
  intros H. destruct (js_ranking no_member (sort_by rank_less) 20 [lit "constructor"] ctor_rows fresh_page) as [[h1 rs]|m|] eqn:E; try (vm_compute in E; discriminate).
  destruct (H _ _ _ _ _ (lit "constructor") (ex_load "SELECT 1" 1 1 "t1") (q_desc_sort _ rk_percent) E) as (p & I & _).
  - now left.
  - cbn. now left.
  - vm_compute in E. injection E as _ <-. cbn. lia.
  - vm_compute in E. injection E as _ <-. destruct I.
Qed.

(** ** Cases *)
Example timeline_objects_ex :
  (forall db, In db [lit "b"] -> ~ on_every_object db) /\
  match js_load_series no_member [lit "b"] (5 # 1000) ctor_rows fresh_page with
  | Ok (_, ss) => map se_name ss = [lit "SELECT 2"; lit "10"; lit "9"]
  | _ => False
  end /\
  js_load_series no_member [lit "b"] (5 # 1000)
    [ {| tl_time := ex_hour 100; tl_dbs := [ {| dl_name := lit "b"; dl_sqls := [ex_load "toString" 1 1 "t"] |} ] |} ] fresh_page = Panic.
Proof.
  split; [|split; vm_compute; reflexivity]. intros db [<- | []] I. apply inherited_spec in I. vm_compute in I. discriminate.
Qed.
(** the entries before they are sorted are in the order of Object.keys *)
Example ranking_objects_ex :
  match js_ranking no_member (fun l => l) 20 [lit "constructor"; lit "b"] ctor_rows fresh_page with
  | Ok (_, rs) => map (fun p => (rk_db p, rk_sql p)) rs = [(lit "b", lit "9"); (lit "b", lit "10"); (lit "b", lit "SELECT 2")]
  | _ => False
  end.
Proof. vm_compute. reflexivity. Qed.
Example raw_loads_objects_ex :
  match js_create_raw_loads ctor_rows with
  | Ok m => js_pick_raw_loads (fun l => l) m 10 (lit "t3") = pick_raw_loads (fun l => l) (create_raw_loads ctor_rows) 10 (lit "t3") /\
            js_pick_raw_loads (fun l => l) m 10 (lit "t3") <> Panic
  | _ => False
  end /\
  js_create_raw_loads [ {| tl_time := ex_hour 100; tl_dbs := [ {| dl_name := lit "b"; dl_sqls := [ex_load "SELECT 1" 1 1 "valueOf"] |} ] |} ] = Panic.
Proof. vm_compute. split; [split; [reflexivity|discriminate]|reflexivity]. Qed.

Print Assumptions timeline_objects.
Print Assumptions ranking_objects.
Print Assumptions raw_loads_objects.
Print Assumptions drawn_again_refuted.
Print Assumptions every_database_ranked_refuted.
