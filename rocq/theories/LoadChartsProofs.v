(** Proofs about the load charts. *)
From Coq Require Import String List NArith ZArith QArith Bool Lia Arith Permutation Lqa.
From Verif Require Import Base Pi IndexBuild LoadCharts LoadChartsSpec.
Import ListNotations.
Local Open Scope nat_scope.

Lemma includes_in : forall l x, includes l x = true <-> In x l.
Proof.
  intros l x. unfold includes. rewrite existsb_exists. split.
  - intros (y & H & E). apply seqb_eq in E. now subst.
  - intros H. exists x. split; auto. apply seqb_refl.
Qed.
Lemma qlt_lt : forall a b, qlt a b = true <-> (a < b)%Q.
Proof.
  intros a b. unfold qlt. rewrite negb_true_iff. split; intros H.
  - apply Qnot_le_lt. intros K. apply Qle_bool_iff in K. congruence.
  - destruct (Qle_bool b a) eqn:E; auto. apply Qle_bool_iff in E. apply Qlt_not_le in H. easy.
Qed.
Lemma qlt_ge : forall a b, qlt a b = false <-> (b <= a)%Q.
Proof.
  intros a b. unfold qlt. rewrite negb_false_iff. apply Qle_bool_iff.
Qed.
Lemma row_date_milli : forall r, at_milli r (row_date r).
Proof.
  intros r. unfold at_milli, row_date. pose proof (Z.div_mod (t_ns (tl_time r)) 1000000).
  pose proof (Z.mod_pos_bound (t_ns (tl_time r)) 1000000). lia.
Qed.

(** ** Lists of entries found by their key *)
Section Entries.
  Context {E : Type} (key : E -> gostring * gostring).
  Definition keq (a b : gostring * gostring) : bool := (seqb (fst a) (fst b) && seqb (snd a) (snd b))%bool.
  Lemma keq_eq : forall a b, keq a b = true <-> a = b.
  Proof.
    intros [a1 a2] [b1 b2]. unfold keq. cbn [fst snd]. rewrite andb_true_iff. split.
    - intros [H1 H2]. apply seqb_eq in H1, H2. now subst.
    - injection 1 as -> ->. split; apply seqb_refl.
  Qed.
  Definition get (l : list E) (k : gostring * gostring) : option E := find (fun e => keq (key e) k) l.
  Lemma get_key : forall l k e, get l k = Some e -> key e = k /\ In e l.
  Proof. intros l k e H. apply find_some in H. destruct H as [H1 H2]. apply keq_eq in H2. auto. Qed.
  Lemma get_in : forall l e, NoDup (map key l) -> In e l -> get l (key e) = Some e.
  Proof.
    induction l as [|x l IH]; intros e ND Hin; [easy|]. unfold get. cbn [find]. inversion ND as [|y z N1 N2]; subst.
    destruct Hin as [->|Hin].
    - rewrite (proj2 (keq_eq _ _) eq_refl). reflexivity.
    - destruct (keq (key x) (key e)) eqn:K; [|now apply IH]. apply keq_eq in K. elim N1. rewrite K. now apply in_map.
  Qed.
  Lemma get_none : forall l k, get l k = None <-> ~ In k (map key l).
  Proof.
    intros l k. split.
    - intros H Hin. apply in_map_iff in Hin. destruct Hin as (e & <- & He).
      pose proof (find_none _ _ H _ He) as K. cbn in K. rewrite (proj2 (keq_eq _ _) eq_refl) in K. discriminate.
    - intros H. destruct (get l k) as [e|] eqn:E1; auto. apply get_key in E1. destruct E1 as [<- He]. elim H. now apply in_map.
  Qed.
  Lemma get_upsert : forall k0 (new : E) upd l k, key new = k0 -> (forall e, key (upd e) = key e) ->
      get (upsert (fun e => keq (key e) k0) new upd l) k =
      if keq k0 k then Some (match get l k with Some e => upd e | None => new end) else get l k.
  Proof.
    intros k0 new upd l k HN HU. induction l as [|e l IH]; cbn [upsert].
    - unfold get. cbn [find]. rewrite HN. destruct (keq k0 k); reflexivity.
    - destruct (keq (key e) k0) eqn:E1.
      + apply keq_eq in E1. unfold get. cbn [find]. rewrite HU, E1. destruct (keq k0 k) eqn:E2; reflexivity.
      + unfold get in *. cbn [find]. destruct (keq (key e) k) eqn:E2.
        * destruct (keq k0 k) eqn:E3; [|reflexivity]. apply keq_eq in E2, E3.
          rewrite E2, E3, (proj2 (keq_eq _ _) eq_refl) in E1. discriminate.
        * exact IH.
  Qed.
  Lemma keys_upsert : forall k0 (new : E) upd l, key new = k0 -> (forall e, key (upd e) = key e) ->
      NoDup (map key l) -> NoDup (map key (upsert (fun e => keq (key e) k0) new upd l)).
  Proof.
    intros k0 new upd l HN HU. induction l as [|e l IH]; intros ND; cbn [upsert map].
    - repeat constructor. easy.
    - inversion ND as [|x y N1 N2]; subst. destruct (keq (key e) (key new)) eqn:E1; cbn [map].
      + rewrite HU. now constructor.
      + constructor; auto. intros K.
        assert (G : get (upsert (fun e => keq (key e) (key new)) new upd l) (key e) <> None) by now rewrite get_none.
        rewrite get_upsert in G by auto. destruct (keq (key new) (key e)) eqn:E2.
        * apply keq_eq in E2. rewrite E2, (proj2 (keq_eq _ _) eq_refl) in E1. discriminate.
        * apply get_none in N1. congruence.
  Qed.
End Entries.

(** ** Series *)
Section Series.
  Context (targets : list gostring) (threshold : Q).
  Definition se_key (s : series) := (se_db s, se_name s).
  Definition events (r : row) : list (gostring * load) :=
    flat_map (fun d => if includes targets (dl_name d)
                       then map (pair (dl_name d)) (filter (fun l => negb (qlt (sl_max l) threshold)) (dl_sqls d)) else [])
      (tl_dbs r).
  Definition ev_key (e : gostring * load) := (fst e, sl_sql (snd e)).
  Definition push_event (i : nat) (r : row) (ss : list series) (e : gostring * load) : list series :=
    upsert (fun s => keq (se_key s) (ev_key e))
      {| se_db := fst e; se_name := sl_sql (snd e); se_data := repeat (zero_point r) i ++ [load_point r (fst e) (snd e)] |}
      (fun s => {| se_db := se_db s; se_name := se_name s; se_data := se_data s ++ [load_point r (fst e) (snd e)] |}) ss.

  Lemma push_row_events : forall i r ss,
      push_row targets threshold i ss r = map (fill i r) (fold_left (push_event i r) (events r) ss).
  Proof.
    intros i r ss. unfold push_row. f_equal. unfold events. generalize (tl_dbs r). intros ds. revert ss.
    induction ds as [|d ds IH]; intros ss; [reflexivity|]. cbn [fold_left flat_map]. rewrite fold_left_app, IH. f_equal.
    unfold push_db. destruct (includes targets (dl_name d)); [|reflexivity].
    generalize (dl_sqls d). intros ls. revert ss. induction ls as [|l ls IHl]; intros ss; [reflexivity|].
    cbn [fold_left filter]. unfold push_load at 2. destruct (qlt (sl_max l) threshold); cbn [negb].
    - apply IHl.
    - cbn [map fold_left]. rewrite IHl. reflexivity.
  Qed.

  Lemma events_in : forall r db l, In (db, l) (events r) <-> drawn_load targets threshold r db (sl_sql l) l.
  Proof.
    intros r db l. unfold events, drawn_load, row_load. rewrite in_flat_map. split.
    - intros (d & Hd & H). destruct (includes targets (dl_name d)) eqn:E; [|easy]. apply includes_in in E.
      apply in_map_iff in H. destruct H as (l' & H & Hl). injection H as <- <-. apply filter_In in Hl. destruct Hl as [Hl Ht].
      apply negb_true_iff, qlt_ge in Ht. split; [exists d; auto|auto].
    - intros ((d & Hd & <- & Hl & _) & Ht & Hq). exists d. split; auto. apply includes_in in Ht. rewrite Ht.
      apply in_map. apply filter_In. split; auto. apply negb_true_iff, qlt_ge. exact Hq.
  Qed.
  Lemma NoDup_app_iff : forall A (a b : list A), NoDup (a ++ b) <-> NoDup a /\ NoDup b /\ forall x, In x a -> ~ In x b.
  Proof.
    induction a as [|x a IH]; intros b; cbn [app]; [split; [intros; repeat split; auto; constructor|tauto]|].
    rewrite !NoDup_cons_iff, IH, in_app_iff. split.
    - intros (H1 & H2 & H3 & H4). repeat split; auto. intros y [->|Hy]; auto.
    - intros ((H1 & H2) & H3 & H4). repeat split; auto.
      + intros [K|K]; [auto|]. apply (H4 x); [now left|auto].
      + intros y Hy. apply H4. now right.
  Qed.
  Lemma event_keys_NoDup : forall r, distinct_row r -> NoDup (map ev_key (events r)).
  Proof.
    intros r. unfold distinct_row, row_keys, events. induction (tl_dbs r) as [|d ds IH]; intros ND; [constructor|].
    cbn [flat_map] in *. rewrite map_app. apply NoDup_app_iff in ND. destruct ND as (N1 & N2 & N3).
    apply NoDup_app_iff. split; [|split; [auto|]].
    - destruct (includes targets (dl_name d)); [|constructor]. rewrite map_map. cbn [ev_key fst snd].
      clear - N1. induction (dl_sqls d) as [|l ls IH]; [constructor|]. cbn [map filter] in *.
      inversion N1 as [|x y K1 K2]; subst. destruct (negb (qlt (sl_max l) threshold)); [|auto]. cbn [map].
      constructor; auto. intros K. apply K1. apply in_map_iff in K. destruct K as (l' & K & Hl). apply filter_In in Hl.
      apply in_map_iff. exists l'. tauto.
    - intros k H1 H2. apply (N3 k).
      + destruct (includes targets (dl_name d)); [|easy]. rewrite map_map in H1. apply in_map_iff in H1.
        destruct H1 as (l & <- & Hl). apply filter_In in Hl. apply in_map_iff. exists l. tauto.
      + apply in_map_iff in H2. destruct H2 as ([db l] & <- & H2). apply in_flat_map in H2.
        destruct H2 as (d0 & Hd & H2). apply in_flat_map. exists d0. split; auto.
        destruct (includes targets (dl_name d0)); [|easy]. apply in_map_iff in H2. destruct H2 as (l' & H2 & Hl).
        injection H2 as <- <-. apply filter_In in Hl. apply in_map_iff. exists l'. tauto.
  Qed.

  Definition data_of (ss : list series) k := option_map se_data (get se_key ss k).
  Definition event_of (r : row) k := find (fun e => keq (ev_key e) k) (events r).

  Lemma push_event_data : forall i r ss e k,
      data_of (push_event i r ss e) k =
      if keq (ev_key e) k
      then Some (match data_of ss k with Some d => d | None => repeat (zero_point r) i end ++ [load_point r (fst e) (snd e)])
      else data_of ss k.
  Proof.
    intros i r ss e k. unfold data_of, push_event. rewrite get_upsert; [|reflexivity|reflexivity].
    destruct (keq (ev_key e) k); [|reflexivity]. destruct (get se_key ss k); reflexivity.
  Qed.
  Lemma push_events_data : forall i r evs ss k, NoDup (map ev_key evs) ->
      data_of (fold_left (push_event i r) evs ss) k =
      match find (fun e => keq (ev_key e) k) evs with
      | Some e => Some (match data_of ss k with Some d => d | None => repeat (zero_point r) i end ++ [load_point r (fst e) (snd e)])
      | None => data_of ss k
      end.
  Proof.
    intros i r. induction evs as [|e evs IH]; intros ss k ND; [reflexivity|]. cbn [fold_left find].
    inversion ND as [|x y N1 N2]; subst. rewrite IH by auto. rewrite push_event_data.
    destruct (keq (ev_key e) k) eqn:E; [|reflexivity]. apply keq_eq in E. subst k.
    destruct (find (fun e0 => keq (ev_key e0) (ev_key e)) evs) as [e'|] eqn:F; [|reflexivity].
    apply find_some in F. destruct F as [F1 F2]. apply keq_eq in F2. elim N1. rewrite <- F2. now apply in_map.
  Qed.
  Lemma push_events_keys : forall i r evs ss, NoDup (map se_key ss) -> NoDup (map se_key (fold_left (push_event i r) evs ss)).
  Proof.
    intros i r. induction evs as [|e evs IH]; intros ss ND; [exact ND|]. cbn [fold_left]. apply IH.
    apply keys_upsert; auto.
  Qed.
  Lemma fill_key : forall i r s, se_key (fill i r s) = se_key s.
  Proof. intros. unfold fill. destruct (Nat.ltb _ _); reflexivity. Qed.
  Lemma fill_data : forall i r ss k,
      data_of (map (fill i r) ss) k =
      option_map (fun d => if Nat.ltb (length d) (i + 1) then d ++ [zero_point r] else d) (data_of ss k).
  Proof.
    intros i r ss k. unfold data_of, get. induction ss as [|s ss IH]; [reflexivity|]. cbn [map find]. rewrite fill_key.
    destruct (keq (se_key s) k); [|exact IH]. cbn [option_map]. f_equal. unfold fill. destruct (Nat.ltb _ _); reflexivity.
  Qed.

  Lemma push_rows_app : forall a b i ss, push_rows targets threshold i (a ++ b) ss =
      push_rows targets threshold (i + length a) b (push_rows targets threshold i a ss).
  Proof.
    induction a as [|r a IH]; intros b i ss; cbn [app push_rows length]; [now rewrite Nat.add_0_r|].
    rewrite IH. f_equal. lia.
  Qed.

  (** what slot [j] of the data for [k] must be *)
  Definition first_shown (rows : list row) k (f : nat) (r : row) : Prop :=
    nth_error rows f = Some r /\ event_of r k <> None /\
    forall j r', j < f -> nth_error rows j = Some r' -> event_of r' k = None.
  Definition slot_ok (rows : list row) k (d : list point) : Prop :=
    length d = length rows /\ exists f rf, first_shown rows k f rf /\
    forall j r, nth_error rows j = Some r -> nth_error d j = Some
      (match event_of r k with
       | Some e => load_point r (fst e) (snd e)
       | None => zero_point (if Nat.ltb j f then rf else r)
       end).

  Lemma series_inv : forall rows, Forall distinct_row rows ->
      NoDup (map se_key (load_series targets threshold rows)) /\
      forall k, match data_of (load_series targets threshold rows) k with
                | Some d => slot_ok rows k d
                | None => forall r, In r rows -> event_of r k = None
                end.
  Proof.
    intros rows. unfold load_series. induction rows as [|r rows IH] using rev_ind; intros HD.
    - split; [constructor|]. intros k. cbn. easy.
    - apply Forall_app in HD. destruct HD as [HD1 HD2]. inversion HD2 as [|x y HR _]; subst. clear HD2.
      specialize (IH HD1). destruct IH as [ND IH]. rewrite push_rows_app. cbn [push_rows]. rewrite Nat.add_0_l.
      set (ss := push_rows targets threshold 0 rows []) in *. set (i := length rows) in *.
      rewrite push_row_events. split.
      + rewrite map_map. erewrite map_ext; [apply push_events_keys; exact ND|]. intros s. apply fill_key.
      + intros k. rewrite fill_data, push_events_data by now apply event_keys_NoDup.
        fold (event_of r k). specialize (IH k).
        assert (NTH : forall j r', nth_error (rows ++ [r]) j = Some r' ->
                  (j < i /\ nth_error rows j = Some r') \/ (j = i /\ r' = r)).
        { intros j r' H. destruct (Nat.lt_ge_cases j i) as [K|K].
          - left. rewrite nth_error_app1 in H by exact K. auto.
          - right. rewrite nth_error_app2 in H by exact K. fold i in H.
            destruct (j - i) as [|m] eqn:E; [|destruct m; discriminate]. injection H as <-. split; [lia|reflexivity]. }
        destruct (event_of r k) as [e|] eqn:EV.
        * cbn [option_map].
          assert (LB : length (match data_of ss k with Some d => d | None => repeat (zero_point r) i end) = i).
          { destruct (data_of ss k); [apply IH|apply repeat_length]. }
          rewrite app_length, LB. cbn [length]. rewrite Nat.ltb_irrefl.
          split; [rewrite !app_length, LB; reflexivity|].
          destruct (data_of ss k) as [d|] eqn:ED.
          -- destruct IH as (HL & f & rf & (F1 & F2 & F3) & HS). exists f, rf.
             assert (FI : f < i) by (apply nth_error_Some; congruence). split.
             ++ split; [now rewrite nth_error_app1|]. split; [exact F2|]. intros j r' Hj H.
                destruct (NTH _ _ H) as [[_ H']|[-> _]]; [eauto|lia].
             ++ intros j r' H. destruct (NTH _ _ H) as [[Hj H']|[-> ->]].
                ** rewrite nth_error_app1 by (rewrite HL; exact Hj). auto.
                ** rewrite nth_error_app2 by (rewrite HL; fold i; lia). rewrite HL. fold i. rewrite Nat.sub_diag, EV. reflexivity.
          -- exists i, r. split.
             ++ split; [rewrite nth_error_app2 by (fold i; lia); fold i; now rewrite Nat.sub_diag|].
                split; [congruence|]. intros j r' Hj H. destruct (NTH _ _ H) as [[_ H']|[-> _]]; [|lia].
                apply IH. eapply nth_error_In; eauto.
             ++ intros j r' H. destruct (NTH _ _ H) as [[Hj H']|[-> ->]].
                ** rewrite nth_error_app1 by (rewrite repeat_length; exact Hj).
                   rewrite (IH r') by (eapply nth_error_In; eauto).
                   destruct (Nat.ltb_spec j i) as [_|K]; [|lia].
                   rewrite (nth_error_nth' _ (zero_point r)) by (rewrite repeat_length; exact Hj).
                   now rewrite nth_repeat.
                ** rewrite nth_error_app2 by (rewrite repeat_length; lia).
                   rewrite repeat_length, Nat.sub_diag, EV. reflexivity.
        * destruct (data_of ss k) as [d|] eqn:ED; cbn [option_map].
          -- destruct IH as (HL & f & rf & (F1 & F2 & F3) & HS). rewrite HL. fold i.
             destruct (Nat.ltb_spec i (i + 1)) as [_|K]; [|lia].
             assert (FI : f < i) by (apply nth_error_Some; congruence).
             split; [rewrite !app_length, HL; reflexivity|]. exists f, rf. split.
             ++ split; [now rewrite nth_error_app1|]. split; [exact F2|]. intros j r' Hj H.
                destruct (NTH _ _ H) as [[_ H']|[-> _]]; [eauto|lia].
             ++ intros j r' H. destruct (NTH _ _ H) as [[Hj H']|[-> ->]].
                ** rewrite nth_error_app1 by (rewrite HL; exact Hj). auto.
                ** rewrite nth_error_app2 by (rewrite HL; fold i; lia). rewrite HL. fold i. rewrite Nat.sub_diag, EV.
                   destruct (Nat.ltb_spec i f) as [K|_]; [lia|]. reflexivity.
          -- intros r' H. apply in_app_or in H. destruct H as [H|[<-|[]]]; auto.
  Qed.

  Lemma event_of_some : forall r k e, event_of r k = Some e -> drawn_load targets threshold r (fst k) (snd k) (snd e) /\ fst e = fst k.
  Proof.
    intros r k [db l] H. apply find_some in H. destruct H as [H1 H2]. apply keq_eq in H2. subst k. cbn [ev_key fst snd].
    split; auto. now apply events_in.
  Qed.
  Lemma event_of_none : forall r k, event_of r k = None <-> forall l, ~ drawn_load targets threshold r (fst k) (snd k) l.
  Proof.
    intros r [db sql]. cbn [fst snd]. split.
    - intros H l HD. assert (E : sl_sql l = sql) by (destruct HD as ((d & _ & _ & _ & E) & _); exact E).
      subst sql. apply events_in in HD. pose proof (find_none _ _ H _ HD) as K. cbn in K.
      unfold ev_key in K. cbn [fst snd] in K. rewrite (proj2 (keq_eq _ _) eq_refl) in K. discriminate.
    - intros H. destruct (event_of r (db, sql)) as [e|] eqn:E; auto. apply event_of_some in E. cbn [fst snd] in E.
      destruct E as [E _]. now apply H in E.
  Qed.
End Series.

(** ** Rows made by the conversion of the samples *)
From Verif Require Import PiSpec.
From Verif Require OtelSpec.
Lemma exactly_sub : forall A (P : A -> Prop) l m, exactly P l m -> forall x, In x m -> P x /\ In x l.
Proof.
  intros A P l m H. induction H as [|x l m Hx H IH|x l m Hx H IH]; intros y Hy; cbn in *.
  - easy.
  - destruct Hy as [<-|Hy]; [auto|]. apply IH in Hy. tauto.
  - apply IH in Hy. tauto.
Qed.
Lemma grouped_keys : forall X E K (kx : X -> K) (key : E -> K) content xs es, grouped kx key content xs es ->
    NoDup (map key es) /\ forall k, In k (map key es) -> exists x, In x xs /\ kx x = k.
Proof.
  intros X E K kx key content xs es H. induction H as [|x xs same others e es H1 H2 H3 H4 H5 IH]; [split; [constructor|easy]|].
  destruct IH as [IH1 IH2]. cbn [map]. split.
  - constructor; auto. intros Hin. apply IH2 in Hin. destruct Hin as (y & Hy & E1).
    apply (exactly_sub _ _ _ _ H2) in Hy. destruct Hy as [N _]. congruence.
  - intros k [<-|Hin]; [exists x; split; [now left|auto]|]. apply IH2 in Hin. destruct Hin as (y & Hy & E1).
    apply (exactly_sub _ _ _ _ H2) in Hy. exists y. split; [now right|tauto].
Qed.
Lemma grouped_content : forall X E K (kx : X -> K) (key : E -> K) content xs es, grouped kx key content xs es ->
    forall e, In e es -> exists g, content g e.
Proof.
  intros X E K kx key content xs es H. induction H as [|x xs same others e es H1 H2 H3 H4 H5 IH]; [easy|].
  intros e' [<-|Hin]; eauto.
Qed.
Lemma hour_content_distinct : forall vadd vlt g (r : row), hour_content vadd vlt g (tl_dbs r) -> distinct_row r.
Proof.
  intros vadd vlt g r H. unfold distinct_row, row_keys. unfold hour_content in H.
  assert (N : NoDup (map dl_name (tl_dbs r))) by (eapply grouped_keys; eauto).
  assert (C : forall d, In d (tl_dbs r) -> NoDup (map sl_sql (dl_sqls d))).
  { intros d Hd. destruct (grouped_content _ _ _ _ _ _ _ _ H d Hd) as (g' & HC). unfold db_content in HC. eapply grouped_keys; eauto. }
  clear H. induction (tl_dbs r) as [|d ds IH]; [constructor|]. cbn [flat_map map] in *. inversion N as [|x y N1 N2]; subst.
  apply NoDup_app_iff. split; [|split].
  - specialize (C d (or_introl eq_refl)). clear - C. induction (dl_sqls d) as [|l ls IH]; [constructor|]. cbn [map] in *.
    inversion C as [|x y C1 C2]; subst. constructor; auto. intros K. apply C1. apply in_map_iff in K.
    destruct K as (l' & E & K). injection E as <-. now apply in_map.
  - apply IH; auto. intros d' Hd. apply C. now right.
  - intros k H1 H2. apply in_map_iff in H1. destruct H1 as (l & <- & Hl). apply in_flat_map in H2. destruct H2 as (d' & Hd & H2).
    apply in_map_iff in H2. destruct H2 as (l' & E & _). injection E as E _. apply N1. rewrite <- E. now apply in_map.
Qed.

(** ** Ranking *)
Definition rk_key (p : rank) := (rk_db p, rk_sql p).
Definition rank_event (ps : list rank) (e : row * (gostring * load)) : list rank :=
  let '(r, (db, l)) := e in rank_load r db ps l.
Definition rank_events (targets : list gostring) (rows : list row) : list (row * (gostring * load)) :=
  flat_map (fun r => flat_map (fun d => if includes targets (dl_name d) then map (fun l => (r, (dl_name d, l))) (dl_sqls d) else [])
                       (tl_dbs r)) rows.
Lemma rank_fold : forall targets rows ps,
    fold_left (rank_row targets) rows ps = fold_left rank_event (rank_events targets rows) ps.
Proof.
  intros targets. induction rows as [|r rows IH]; intros ps; [reflexivity|]. cbn [fold_left rank_events flat_map].
  rewrite fold_left_app. fold (rank_events targets rows). rewrite <- IH. f_equal. unfold rank_row.
  generalize (tl_dbs r). intros ds. revert ps. induction ds as [|d ds IHd]; intros ps; [reflexivity|]. cbn [fold_left flat_map].
  rewrite fold_left_app, <- IHd. f_equal. unfold rank_db. destruct (includes targets (dl_name d)); [|reflexivity].
  generalize (dl_sqls d). intros ls. revert ps. induction ls as [|l ls IHl]; intros ps; [reflexivity|]. cbn [fold_left map].
  rewrite IHl. reflexivity.
Qed.
Definition loads_for (evs : list (row * (gostring * load))) k : list load :=
  map (fun e => snd (snd e)) (filter (fun e => keq (ev_key (snd e)) k) evs).
Fixpoint qsum (l : list load) : Q := match l with [] => 0 | x :: l' => sl_sum x + qsum l' end.
Lemma qsum_app : forall a b, (qsum (a ++ b) == qsum a + qsum b)%Q.
Proof. induction a as [|x a IH]; intros b; cbn [app qsum]; [lra|]. rewrite IH. lra. Qed.
Lemma rank_inv : forall evs, let ps := fold_left rank_event evs [] in
    NoDup (map rk_key ps) /\
    forall k, match get rk_key ps k with
              | None => loads_for evs k = []
              | Some p => exists l ls, loads_for evs k = l :: ls /\ rk_tok p = sl_tok l /\ (rk_percent p == qsum (l :: ls) * 100)%Q
              end.
Proof.
  induction evs as [|[r [db l]] evs IH] using rev_ind; [split; [constructor|easy]|]. cbv zeta in *.
  rewrite fold_left_app. cbn [fold_left]. destruct IH as [ND IH]. set (ps := fold_left rank_event evs []) in *.
  cbn [rank_event]. unfold rank_load. split.
  - apply (keys_upsert rk_key (db, sl_sql l)); auto.
  - intros k.
    change (fun p : rank => (seqb (rk_db p) db && seqb (rk_sql p) (sl_sql l))%bool) with (fun p => keq (rk_key p) (db, sl_sql l)).
    rewrite get_upsert; [|reflexivity|reflexivity]. specialize (IH k). unfold loads_for in *. rewrite filter_app, map_app.
    cbn [filter map fst snd]. change (ev_key (db, l)) with (db, sl_sql l). destruct (keq (db, sl_sql l) k) eqn:E.
    + cbn [map]. destruct (get rk_key ps k) as [p|] eqn:G.
      * destruct IH as (l0 & ls & E0 & T & Q0). exists l0, (ls ++ [l]). split; [now rewrite E0|]. split; [exact T|].
        cbn [rk_percent]. rewrite Q0. cbn [qsum]. rewrite qsum_app. cbn [qsum]. lra.
      * exists l, []. split; [now rewrite IH|]. split; [reflexivity|]. cbn. lra.
    + cbn [map]. rewrite app_nil_r. exact IH.
Qed.
Lemma loads_for_rows : forall targets rows db sql,
    loads_for (rank_events targets rows) (db, sql) =
    if includes targets db then map snd (filter (fun e => keq (ev_key e) (db, sql)) (table_loads rows)) else [].
Proof.
  intros targets rows db sql. unfold loads_for, rank_events, table_loads.
  induction rows as [|r rows IH]; cbn [flat_map].
  - destruct (includes targets db); reflexivity.
  - rewrite !filter_app, !map_app, IH. clear IH.
    assert (H : map (fun e => snd (snd e)) (filter (fun e => keq (ev_key (snd e)) (db, sql))
              (flat_map (fun d => if includes targets (dl_name d) then map (fun l => (r, (dl_name d, l))) (dl_sqls d) else []) (tl_dbs r))) =
              if includes targets db then map snd (filter (fun e => keq (ev_key e) (db, sql))
              (flat_map (fun d => map (fun l => (dl_name d, l)) (dl_sqls d)) (tl_dbs r))) else []).
    { induction (tl_dbs r) as [|d ds IHd]; cbn [flat_map]; [destruct (includes targets db); reflexivity|].
      rewrite !filter_app, !map_app, IHd. clear IHd.
      assert (H : map (fun e => snd (snd e)) (filter (fun e => keq (ev_key (snd e)) (db, sql))
              (if includes targets (dl_name d) then map (fun l => (r, (dl_name d, l))) (dl_sqls d) else [])) =
              if includes targets db then map snd (filter (fun e => keq (ev_key e) (db, sql))
              (map (fun l => (dl_name d, l)) (dl_sqls d))) else []).
      { destruct (includes targets (dl_name d)) eqn:E1.
        - induction (dl_sqls d) as [|l ls IHl]; cbn [map filter]; [destruct (includes targets db); reflexivity|].
          change (ev_key (snd (r, (dl_name d, l)))) with (dl_name d, sl_sql l). change (ev_key (dl_name d, l)) with (dl_name d, sl_sql l).
          destruct (keq (dl_name d, sl_sql l) (db, sql)) eqn:E2; [|exact IHl].
          cbn [map snd]. rewrite IHl. apply keq_eq in E2. injection E2 as E2 _. rewrite E2 in E1. rewrite E1. reflexivity.
        - destruct (includes targets db) eqn:E3; [|reflexivity]. cbn [filter map].
          induction (dl_sqls d) as [|l ls IHl]; [reflexivity|]. cbn [map filter].
          change (ev_key (dl_name d, l)) with (dl_name d, sl_sql l).
          destruct (keq (dl_name d, sl_sql l) (db, sql)) eqn:E2; [|exact IHl].
          apply keq_eq in E2. injection E2 as E2 _. congruence. }
      rewrite H. destruct (includes targets db); [rewrite ?filter_app, ?map_app; reflexivity|reflexivity]. }
    rewrite H. destruct (includes targets db); [rewrite ?filter_app, ?map_app; reflexivity|reflexivity].
Qed.
Lemma total_qsum : forall db sql ls q, total_load db sql ls q ->
    (q == qsum (map snd (filter (fun e => keq (ev_key e) (db, sql)) ls)))%Q.
Proof.
  intros db sql ls q H. induction H as [q H|l ls q E H IH|[d l] ls q N H IH].
  - exact H.
  - cbn [filter]. change (ev_key (db, l)) with (db, sl_sql l). rewrite E, (proj2 (keq_eq _ _) eq_refl). cbn [map qsum snd]. now rewrite IH.
  - cbn [filter fst snd] in *. change (ev_key (d, l)) with (d, sl_sql l). destruct (keq (d, sl_sql l) (db, sql)) eqn:K; [|exact IH].
    apply keq_eq in K. injection K as K1 K2. destruct N; congruence.
Qed.
Lemma total_exists : forall db sql ls, exists q, total_load db sql ls q.
Proof.
  intros db sql. induction ls as [|[d l] ls [q IH]].
  - exists 0%Q. constructor. reflexivity.
  - destruct (keq (d, sl_sql l) (db, sql)) eqn:K.
    + apply keq_eq in K. injection K as -> K. exists (sl_sum l + q)%Q. now constructor.
    + exists q. constructor; auto. cbn [fst snd]. destruct (list_eq_dec N.eq_dec d db) as [->|]; [|auto].
      right. intros K2. rewrite K2, (proj2 (keq_eq _ _) eq_refl) in K. discriminate.
Qed.

(** the first of a sorted list are the largest *)
Lemma sorted_nth : forall A (less : A -> A -> bool) l, sorted_by less l -> forall i j a b, i < j ->
    nth_error l i = Some a -> nth_error l j = Some b -> less b a = false.
Proof.
  intros A less l H. induction H as [|x l HF H IH]; intros i j a b Hij Ha Hb; [destruct i; discriminate|].
  destruct j as [|j]; [lia|]. cbn in Hb. destruct i as [|i].
  - injection Ha as ->. rewrite Forall_forall in HF. apply HF. eapply nth_error_In; eauto.
  - cbn in Ha. apply (IH i j); auto; lia.
Qed.
Lemma nth_error_firstn_some : forall A n (l : list A) i a, nth_error (firstn n l) i = Some a -> nth_error l i = Some a /\ i < n.
Proof.
  induction n as [|n IH]; intros l i a H; [destruct i; discriminate|]. destruct l as [|x l]; [destruct i; discriminate|].
  destruct i as [|i]; cbn in *; [split; [auto|lia]|]. apply IH in H. split; [tauto|lia].
Qed.
Lemma nth_error_skipn_some : forall A n (l : list A) i a, nth_error (skipn n l) i = Some a -> nth_error l (n + i) = Some a.
Proof.
  induction n as [|n IH]; intros l i a H; [exact H|]. destruct l as [|x l]; [destruct i; discriminate|]. cbn in *. now apply IH.
Qed.
Lemma firstn_largest : forall A (v : A -> Q) (srt : list A -> list A) n l,
    is_sort (fun a b => qlt (v b) (v a)) srt -> largest v n l (firstn n (srt l)).
Proof.
  intros A v srt n l H. destruct (H l) as [P S0]. split; [|split].
  - rewrite firstn_length. now rewrite (Permutation_length P).
  - intros i j a b Hij Ha Hb. apply nth_error_firstn_some in Ha, Hb. pose proof (sorted_nth _ _ _ S0 i j a b Hij (proj1 Ha) (proj1 Hb)) as K.
    cbn in K. now apply qlt_ge in K.
  - exists (skipn n (srt l)). rewrite firstn_skipn. split; [exact P|]. intros a b Ha Hb.
    apply In_nth_error in Ha, Hb. destruct Ha as (i & Ha), Hb as (j & Hb). apply nth_error_firstn_some in Ha.
    apply nth_error_skipn_some in Hb. destruct Ha as [Ha Hi].
    pose proof (sorted_nth _ _ _ S0 i (n + j) a b ltac:(lia) Ha Hb) as K. cbn in K. now apply qlt_ge in K.
Qed.

(** ** Raw loads *)
Lemma raw_fold : forall xs m tok,
    match find (fun e => seqb (fst e) tok) (fold_left raw_add xs m) with
    | Some e => Some (snd e) | None => None end =
    match find (fun e => seqb (fst e) tok) m with
    | Some e => Some (snd e ++ filter (fun x => seqb (sl_tok (rw_load x)) tok) xs)
    | None => match filter (fun x => seqb (sl_tok (rw_load x)) tok) xs with [] => None | l => Some l end
    end.
Proof.
  assert (ADD : forall x m tok,
     match find (fun e => seqb (fst e) tok) (raw_add m x) with Some e => Some (snd e) | None => None end =
     if seqb (sl_tok (rw_load x)) tok
     then Some (match find (fun e => seqb (fst e) tok) m with Some e => snd e ++ [x] | None => [x] end)
     else match find (fun e => seqb (fst e) tok) m with Some e => Some (snd e) | None => None end).
  { intros x m tok. unfold raw_add. induction m as [|e m IH]; cbn [upsert find fst snd].
    - destruct (seqb (sl_tok (rw_load x)) tok); reflexivity.
    - destruct (seqb (fst e) (sl_tok (rw_load x))) eqn:E1; cbn [find fst snd].
      + apply seqb_eq in E1. rewrite E1. destruct (seqb (sl_tok (rw_load x)) tok); reflexivity.
      + destruct (seqb (fst e) tok) eqn:E2; [|exact IH]. apply seqb_eq in E2. subst tok.
        destruct (seqb (sl_tok (rw_load x)) (fst e)) eqn:E3; [|reflexivity]. apply seqb_eq in E3.
        rewrite E3, seqb_refl in E1. discriminate. }
  induction xs as [|x xs IH]; intros m tok; cbn [fold_left filter].
  - destruct (find _ m); [now rewrite app_nil_r|reflexivity].
  - rewrite IH. specialize (ADD x m tok). destruct (find (fun e => seqb (fst e) tok) (raw_add m x)) as [e'|] eqn:E1;
    destruct (seqb (sl_tok (rw_load x)) tok) eqn:E2; destruct (find (fun e => seqb (fst e) tok) m) as [e|] eqn:E3;
    try discriminate; try reflexivity.
    + injection ADD as ->. now rewrite <- app_assoc.
    + injection ADD as ->. reflexivity.
    + injection ADD as ->. reflexivity.
Qed.
Definition all_raw (rows : list row) : list raw_load :=
  flat_map (fun r => flat_map (fun d => map (fun l => {| rw_db := dl_name d; rw_load := l; rw_date := row_date r |}) (dl_sqls d))
                       (tl_dbs r)) rows.
Lemma create_raw_fold : forall rows, create_raw_loads rows = fold_left raw_add (all_raw rows) [].
Proof.
  intros rows. unfold create_raw_loads, all_raw. generalize (@nil (gostring * list raw_load)). induction rows as [|r rows IH]; intros m; [reflexivity|].
  cbn [fold_left flat_map]. rewrite fold_left_app, <- IH. f_equal. revert m.
  induction (tl_dbs r) as [|d ds IHd]; intros m; [reflexivity|]. cbn [fold_left flat_map]. rewrite fold_left_app, <- IHd. f_equal.
  revert m. induction (dl_sqls d) as [|l ls IHl]; intros m; [reflexivity|]. cbn [fold_left map]. now rewrite IHl.
Qed.

(** ** Databases *)
Lemma uniq_spec : forall l, NoDup (uniq l) /\ forall x, In x (uniq l) <-> In x l.
Proof.
  intros l. unfold uniq.
  assert (G : forall l acc, NoDup acc -> NoDup (fold_left (fun acc x => if includes acc x then acc else acc ++ [x]) l acc) /\
     forall x, In x (fold_left (fun acc x => if includes acc x then acc else acc ++ [x]) l acc) <-> In x acc \/ In x l).
  { clear l. induction l as [|y l IH]; intros acc ND; [split; [exact ND|cbn; tauto]|]. cbn [fold_left].
    destruct (includes acc y) eqn:E.
    - destruct (IH acc ND) as [H1 H2]. split; auto. intros x. rewrite H2. apply includes_in in E. cbn. split; [tauto|].
      intros [K|[<-|K]]; auto.
    - assert (~ In y acc) by (intros K; apply includes_in in K; congruence).
      destruct (IH (acc ++ [y])) as [H1 H2].
      + apply NoDup_app_iff. split; [auto|]. split; [repeat constructor; easy|]. intros x Hx [<-|[]]. auto.
      + split; auto. intros x. rewrite H2, in_app_iff. cbn. tauto. }
  destruct (G l [] (NoDup_nil _)) as [H1 H2]. split; auto. intros x. rewrite H2. cbn. tauto.
Qed.
Lemma sltb_before : forall a b, sltb a b = true <-> name_before a b.
Proof.
  induction a as [|x a IH]; intros [|y b]; cbn [sltb].
  - split; [discriminate|]. intros [(z & t & E)|(p & z & w & s & t & E & _)]; [discriminate|destruct p; discriminate].
  - split; [|reflexivity]. intros _. left. exists y, b. reflexivity.
  - split; [discriminate|]. intros [(z & t & E)|(p & z & w & s & t & _ & E & _)]; [discriminate|destruct p; discriminate].
  - destruct (N.eqb_spec x y) as [->|NE].
    + rewrite IH. split.
      * intros [(z & t & ->)|(p & z & w & s & t & -> & -> & L)]; [left; exists z, t; reflexivity|].
        right. exists (y :: p), z, w, s, t. auto.
      * intros [(z & t & E)|(p & z & w & s & t & E1 & E2 & L)]; [left; exists z, t; cbn in E; congruence|].
        destruct p as [|q p]; cbn in E1, E2; [injection E1 as -> ->; injection E2 as -> ->; lia|].
        injection E1 as -> ->. injection E2 as ->. right. exists p, z, w, s, t. auto.
    + rewrite N.ltb_lt. split.
      * intros L. right. exists [], x, y, a, b. auto.
      * intros [(z & t & E)|(p & z & w & s & t & E1 & E2 & L)]; [cbn in E; congruence|].
        destruct p as [|q p]; cbn in E1, E2; [congruence|]. congruence.
Qed.
Lemma before_asym : forall a b, name_before a b -> name_before b a -> False.
Proof. intros a b H1 H2. apply sltb_before in H1, H2. rewrite (sltb_asym _ _ H1) in H2. discriminate. Qed.
