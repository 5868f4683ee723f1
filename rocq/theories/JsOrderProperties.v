(** C142: the order in which Object.keys lists members, and equal loads in the rankings and
    in the lists of SQLs. *)
From Coq Require Import String List NArith ZArith QArith Bool Lia Arith Permutation.
From Verif Require Import Base Dec IndexBuild Pi LoadCharts LoadChartsSpec LoadChartsProofs LoadChartsProperties JsCharts JsChartsSpec JsChartsProofs JsRankingProofs JsChartsProperties JsOrderSpec JsOrderProofs.
Import ListNotations.
Local Open Scope nat_scope.

(** Object.keys lists each member once: array indexes by their number, then the others as
    they were created. *)
Theorem object_keys : forall l, NoDup l ->
  Permutation (js_keys l) l /\ forall a b, before (js_keys l) a b -> member_first (before l) a b.
Proof. intros l N. split; [apply js_keys_perm|]. intros a b. now apply js_keys_order. Qed.

Lemma sort_by_stable : forall A (less : A -> A -> bool),
  (forall a b, less a b = true -> less b a = false) -> (forall a b c, less a b = false -> less b c = false -> less a c = false) ->
  stable_sort less (sort_by less).
Proof.
  intros A less AS TR l. destruct (sort_by_is_sort A less AS TR l) as [P S1]. split; [exact P|]. split; [exact S1|]. clear P S1. intros a.
  set (f := fun b => negb (less a b) && negb (less b a)).
  assert (forall x l, filter f (insert_by less x l) = filter f (x :: l)) as INS.
  { intros x m. induction m as [|y m IH]; cbn [insert_by]; [reflexivity|]. destruct (less y x) eqn:E; [|reflexivity]. cbn [filter] in *. rewrite IH.
    destruct (f x) eqn:FX; [|reflexivity]. assert (f y = false) as ->; [|reflexivity]. destruct (f y) eqn:FY; [|reflexivity].
    unfold f in FX, FY. apply andb_true_iff in FX as [X1 X2], FY as [Y1 Y2]. apply negb_true_iff in X1, X2, Y1, Y2.
    rewrite (TR y a x Y2 X1) in E. discriminate. }
  induction l as [|x l IH]; [reflexivity|]. change (sort_by less (x :: l)) with (insert_by less x (sort_by less l)). rewrite INS. cbn [filter]. now rewrite IH.
Qed.
Lemma q_desc_stable : forall A (v : A -> Q), stable_sort (fun a b => qlt (v b) (v a)) (sort_by (fun a b => qlt (v b) (v a))).
Proof.
  intros A v. apply sort_by_stable.
  - intros a b H. apply qlt_lt in H. apply qlt_ge. now apply Qlt_le_weak.
  - intros a b c H1 H2. apply qlt_ge in H1, H2. apply qlt_ge. eapply Qle_trans; eauto.
Qed.
Lemma same_load : forall x y, (negb (qlt x y) && negb (qlt y x))%bool = true <-> (x == y)%Q.
Proof.
  intros x y. rewrite andb_true_iff, !negb_true_iff, !qlt_ge. split.
  - intros [H1 H2]. now apply Qle_antisym.
  - intros H. rewrite H. split; apply Qle_refl.
Qed.

(** SQLs with the same load are listed by database and then by SQL; databases, and the SQLs
    of a database, that are array indexes come first by number, the others as they first
    appear in the table. *)
Theorem ties_in_ranking : forall member srt count targets rows h h' out a b, stable_sort rank_less srt ->
  js_ranking member srt count targets rows h = Ok (h', out) -> before out a b -> (rk_percent a == rk_percent b)%Q ->
  member_first (appears_first (names_in rows)) (rk_db a) (rk_db b) \/
  (rk_db a = rk_db b /\ member_first (fun x y => appears_first (sqls_in rows) (rk_db a, x) (rk_db a, y)) (rk_sql a) (rk_sql b)).
Proof.
  intros member srt count targets rows h h' out a b ST E B T. unfold js_ranking in E.
  destruct (ofold (js_rank_row member targets) rows {| rs_left := ph_left h; rs_props := [] |}) as [s|m|] eqn:EF; cbn [obind] in E; try discriminate.
  assert (out = firstn count (srt (all_props (rs_props s)))) as -> by congruence. clear E.
  apply before_firstn in B. destruct (ST (all_props (rs_props s))) as (_ & _ & SF). specialize (SF a).
  set (f := fun b => negb (rank_less a b) && negb (rank_less b a)) in SF.
  assert (f a = true) as FA by (apply same_load; reflexivity). assert (f b = true) as FB by (apply same_load; now symmetry).
  assert (before (filter f (srt (all_props (rs_props s)))) a b) as B2 by now apply before_filter. rewrite SF in B2. apply before_filter in B2 as (B2 & _).
  apply (props_order targets (rs_props s)); [|exact B2].
  exact (rows_created member targets rows {| rs_left := ph_left h; rs_props := [] |} _ [] [] (created_nil targets) EF).
Qed.

(** The SQLs shown for a tokenized SQL: those with the same load are the first of them in
    the table, in its order. *)
Theorem ties_in_raw_loads : forall srt rows size tok got, stable_sort raw_less srt ->
  pick_raw_loads srt (create_raw_loads rows) size tok = Ok got ->
  forall v, exists rest, filter (fun e => Qeq_bool (sl_max (snd e)) v) (map (fun x => (rw_db x, rw_load x)) got) ++ rest =
    filter (fun e => seqb (sl_tok (snd e)) tok && Qeq_bool (sl_max (snd e)) v) (table_loads rows).
Proof.
  intros srt rows size tok got ST E v. unfold pick_raw_loads in E. rewrite create_raw_fold in E.
  pose proof (raw_fold (all_raw rows) [] tok) as RF. cbn [find] in RF.
  assert (TL : table_loads rows = map (fun x => (rw_db x, rw_load x)) (all_raw rows)).
  { unfold all_raw, table_loads. clear. induction rows as [|r rows IH]; [reflexivity|]. cbn [flat_map]. rewrite map_app, IH. f_equal.
    induction (tl_dbs r) as [|d ds IHd]; [reflexivity|]. cbn [flat_map]. rewrite map_app, IHd, map_map. reflexivity. }
  set (same := filter (fun x => seqb (sl_tok (rw_load x)) tok) (all_raw rows)) in *.
  destruct (find _ _) as [e|]; [|discriminate]. assert (got = firstn size (srt (snd e))) as -> by congruence. clear E.
  assert (snd e = same) as ->. { destruct same as [|x same']; [discriminate|]. injection RF as ->. reflexivity. }
  assert (forall A B (g : A -> B) p l, filter p (map g l) = map g (filter (fun x => p (g x)) l)) as FM.
  { intros A B g p l. induction l as [|x l IH]; [reflexivity|]. cbn [map filter]. destruct (p (g x)); cbn [map]; now rewrite IH. }
  rewrite TL, !FM. cbn [snd].
  assert (filter (fun x => seqb (sl_tok (rw_load x)) tok && Qeq_bool (sl_max (rw_load x)) v) (all_raw rows) =
          filter (fun x => Qeq_bool (sl_max (rw_load x)) v) same) as ->.
  { unfold same. clear. induction (all_raw rows) as [|x l IH]; [reflexivity|]. cbn [filter]. destruct (seqb (sl_tok (rw_load x)) tok); cbn [andb filter]; [|exact IH].
    destruct (Qeq_bool (sl_max (rw_load x)) v); now rewrite IH. }
  set (p := fun x => Qeq_bool (sl_max (rw_load x)) v). destruct (ST same) as (P & _ & SF).
  assert (filter p (srt same) = filter p same) as EQ.
  { destruct (filter p same) as [|a l] eqn:EF.
    - destruct (filter p (srt same)) as [|a l] eqn:EF2; [reflexivity|]. assert (In a (filter p (srt same))) as I by (rewrite EF2; now left).
      apply filter_In in I as [I1 I2]. apply (Permutation_in _ P) in I1. assert (In a (filter p same)) as I by (apply filter_In; now split). rewrite EF in I. destruct I.
    - rewrite <- EF. assert (In a (filter p same)) as I by (rewrite EF; now left). apply filter_In in I as [_ I]. unfold p in I. apply Qeq_bool_iff in I.
      specialize (SF a). assert (forall m, filter p m = filter (fun b => negb (raw_less a b) && negb (raw_less b a)) m) as PE; [|now rewrite !PE].
      intros m. apply filter_ext. intros x. unfold p. apply eq_true_iff_eq. rewrite Qeq_bool_iff. unfold raw_less. rewrite same_load, I. reflexivity. }
  rewrite <- EQ. exists (map (fun x => (rw_db x, rw_load x)) (filter p (skipn size (srt same)))).
  rewrite <- map_app. f_equal. rewrite <- (firstn_skipn size (srt same)) at 3. now rewrite filter_app.
Qed.

(** ** Cases *)
Definition tie_rows : list row :=
  [ {| tl_time := ex_hour 100; tl_dbs := [ {| dl_name := lit "b"; dl_sqls := [ex_load "SELECT 2" 1 1 "t2"] |};
                                           {| dl_name := lit "01"; dl_sqls := [ex_load "y" 1 1 "t2"; ex_load "x" 1 1 "t2"] |};
                                           {| dl_name := lit "10"; dl_sqls := [ex_load "SELECT 1" 1 1 "t1"] |};
                                           {| dl_name := lit "9"; dl_sqls := [ex_load "SELECT 1" 1 1 "t1"] |};
                                           {| dl_name := lit "4294967295"; dl_sqls := [ex_load "SELECT 1" 1 1 "t1"] |} ] |} ].
Example object_keys_ex : NoDup (map dl_name (flat_map tl_dbs tie_rows)) /\
  js_keys (map dl_name (flat_map tl_dbs tie_rows)) = [lit "9"; lit "10"; lit "b"; lit "01"; lit "4294967295"].
Proof. split; [|vm_compute; reflexivity]. cbn. repeat constructor; cbn; intuition discriminate. Qed.
Example ties_in_ranking_ex : stable_sort rank_less (sort_by rank_less) /\
  match js_ranking no_member (sort_by rank_less) 5 (map dl_name (flat_map tl_dbs tie_rows)) tie_rows fresh_page with
  | Ok (_, out) => map (fun p => (rk_db p, rk_sql p)) out =
      [(lit "9", lit "SELECT 1"); (lit "10", lit "SELECT 1"); (lit "b", lit "SELECT 2"); (lit "01", lit "y"); (lit "01", lit "x")] /\
      (exists a b, before out a b /\ (rk_percent a == rk_percent b)%Q /\ rk_db a = lit "9" /\ rk_db b = lit "01")
  | _ => False
  end.
Proof.
  split; [apply (q_desc_stable _ rk_percent)|].
  destruct (js_ranking _ _ _ _ _ _) as [[h out]|m|] eqn:E; vm_compute in E; try discriminate. injection E as <- <-. split; [reflexivity|].
  do 2 eexists. split; [apply before_cons; left; split; [reflexivity|do 2 right; left; reflexivity]|]. split; [reflexivity|]. now split.
Qed.
Example ties_in_raw_loads_ex : stable_sort raw_less (sort_by raw_less) /\
  match pick_raw_loads (sort_by raw_less) (create_raw_loads tie_rows) 2 (lit "t2") with
  | Ok got => map (fun x => (rw_db x, sl_sql (rw_load x))) got = [(lit "b", lit "SELECT 2"); (lit "01", lit "y")]
  | _ => False
  end.
Proof. split; [apply (q_desc_stable _ (fun x => sl_max (rw_load x)))|]. vm_compute. reflexivity. Qed.

Print Assumptions object_keys.
Print Assumptions ties_in_ranking.
Print Assumptions ties_in_raw_loads.
