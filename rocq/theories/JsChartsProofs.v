(** Facts about JavaScript's objects as maps. *)
From Coq Require Import String List NArith ZArith QArith Bool Lia Arith Permutation.
From Verif Require Import Base Pi LoadCharts LoadChartsSpec JsCharts JsChartsSpec.
Import ListNotations.
Local Open Scope nat_scope.

Lemma seqb_refl' : forall k, seqb k k = true.
Proof. intros k. now apply seqb_eq. Qed.
Lemma inherited_spec : forall k, inherited k = true <-> on_every_object k.
Proof.
  intros k. unfold inherited, on_every_object. rewrite existsb_exists. split.
  - intros (x & I & E). apply seqb_eq in E as <-. exact I.
  - intros I. exists k. split; [exact I|apply seqb_refl'].
Qed.
Lemma own_put : forall V k (v : V) o k', own k' (put k v o) = if seqb k k' then Some v else own k' o.
Proof.
  intros V k v o k'. unfold own. induction o as [|e o IH]; cbn [put find fst].
  - destruct (seqb k k'); reflexivity.
  - destruct (seqb (fst e) k) eqn:E.
    + apply seqb_eq in E. cbn [find fst]. rewrite E. destruct (seqb k k') eqn:E2; reflexivity.
    + cbn [find]. destruct (seqb (fst e) k') eqn:E2.
      * destruct (seqb k k') eqn:E3; [|reflexivity]. apply seqb_eq in E2, E3. subst. rewrite seqb_refl' in E. discriminate.
      * exact IH.
Qed.

Fixpoint pos {A} (f : A -> bool) (l : list A) : option nat :=
  match l with [] => None | x :: l' => if f x then Some 0 else option_map S (pos f l') end.
Lemma pos_app : forall A (f : A -> bool) l x, pos f (l ++ [x]) = match pos f l with Some n => Some n | None => if f x then Some (length l) else None end.
Proof.
  intros A f l x. induction l as [|y l IH]; cbn [app pos length].
  - destruct (f x); reflexivity.
  - destruct (f y); [reflexivity|]. rewrite IH. destruct (pos f l); [reflexivity|]. destruct (f x); reflexivity.
Qed.
Lemma pos_lt : forall A (f : A -> bool) l n, pos f l = Some n -> n < length l.
Proof.
  intros A f l. induction l as [|y l IH]; cbn [pos length]; intros n E; [discriminate|].
  destruct (f y); [injection E as <-; lia|]. destruct (pos f l) as [m|]; [|discriminate]. injection E as <-. specialize (IH m eq_refl). lia.
Qed.
Lemma push_at_app : forall a b n p, push_at (length a + n) p (a ++ b) = a ++ push_at n p b.
Proof. intros a b n p. induction a as [|x a IH]; [reflexivity|]. cbn [length Nat.add app push_at]. now rewrite IH. Qed.
Lemma push_at_map : forall X (key : series -> X) n p l, (forall s s', se_db s = se_db s' -> se_name s = se_name s' -> key s = key s') ->
  map key (push_at n p l) = map key l.
Proof.
  intros X key n p l H. revert n. induction l as [|s l IH]; intros [|n]; cbn [push_at map]; try reflexivity; f_equal; auto.
Qed.
Lemma push_at_length : forall n p l, length (push_at n p l) = length l.
Proof. intros n p l. revert n. induction l as [|s l IH]; intros [|n]; cbn [push_at length]; auto. Qed.
Lemma pos_map : forall A B (g : A -> B) f l, pos f (map g l) = pos (fun x => f (g x)) l.
Proof. intros A B g f l. induction l as [|x l IH]; cbn [map pos]; [reflexivity|]. destruct (f (g x)); [reflexivity|]. now rewrite IH. Qed.

Definition is_of (db sql : gostring) (s : series) : bool := seqb (se_db s) db && seqb (se_name s) sql.
Lemma pos_push : forall db sql n p l, pos (is_of db sql) (push_at n p l) = pos (is_of db sql) l.
Proof.
  intros db sql n p l. set (key := fun s => (se_db s, se_name s)). set (g := fun k : gostring * gostring => seqb (fst k) db && seqb (snd k) sql).
  transitivity (pos g (map key (push_at n p l))); [rewrite pos_map; reflexivity|].
  rewrite push_at_map; [rewrite pos_map; reflexivity|]. intros s s' E1 E2. unfold key. now rewrite E1, E2.
Qed.
Lemma upsert_pos : forall db sql new p l,
  upsert (is_of db sql) new (fun s => {| se_db := se_db s; se_name := se_name s; se_data := se_data s ++ [p] |}) l =
  match pos (is_of db sql) l with Some n => push_at n p l | None => l ++ [new] end.
Proof.
  intros db sql new p l. induction l as [|s l IH]; cbn [upsert pos app]; [reflexivity|]. destruct (is_of db sql s); [reflexivity|].
  rewrite IH. destruct (pos (is_of db sql) l); reflexivity.
Qed.
Lemma ofold_app : forall A B (f : A -> B -> outcome A) l1 l2 a, ofold f (l1 ++ l2) a = do a' <- ofold f l1 a; ofold f l2 a'.
Proof.
  intros A B f l1 l2. induction l1 as [|b l1 IH]; intros a; cbn [app ofold]; [reflexivity|]. destruct (f a b); cbn [obind]; auto.
Qed.

(** ** The series *)
Section Series.
  Context (member : gostring -> gostring -> option bool) (targets : list gostring) (threshold : Q) (h : page_heap).
  Let base := ph_series h.
  Definition found (known : list (gostring * list (gostring * nat))) (db sql : gostring) : option nat :=
    match own db known with Some inner => own sql inner | None => None end.
  Definition held (d : drawing) (ss : list series) : Prop :=
    ph_series (dr_heap d) = base ++ ss /\ ph_left (dr_heap d) = ph_left h /\ dr_out d = seq (length base) (length ss) /\
    (forall db sql, found (dr_known d) db sql = option_map (Nat.add (length base)) (pos (is_of db sql) ss)) /\
    (forall s, In s ss -> inherited (se_name s) = false).

  Lemma push_at_in : forall n p l s, In s (push_at n p l) -> exists s', In s' l /\ se_name s = se_name s'.
  Proof.
    intros n p l. revert n. induction l as [|x l IH]; intros n s I; [destruct n; destruct I|]. destruct n as [|n]; cbn [push_at] in I; destruct I as [<- | I].
    - exists x. split; [now left|reflexivity].
    - exists s. split; [now right|reflexivity].
    - exists x. split; [now left|reflexivity].
    - destruct (IH n s I) as (s' & J & E). exists s'. split; [now right|exact E].
  Qed.
  Lemma pos_inherited : forall db sql ss, (forall s, In s ss -> inherited (se_name s) = false) -> inherited sql = true -> pos (is_of db sql) ss = None.
  Proof.
    intros db sql ss H I. induction ss as [|s ss IH]; [reflexivity|]. cbn [pos]. unfold is_of at 1. destruct (seqb (se_name s) sql) eqn:E.
    - apply seqb_eq in E. rewrite <- E in I. rewrite (H s (or_introl eq_refl)) in I. discriminate.
    - rewrite andb_false_r. rewrite IH; [reflexivity|]. intros s' I'. apply H. now right.
  Qed.

  Lemma load_held : forall i r db d ss l, held d ss -> inherited db = false ->
    (qlt (sl_max l) threshold = false -> inherited (sl_sql l) = true -> js_push_load member threshold i r db d l = Panic) /\
    ((qlt (sl_max l) threshold = false -> inherited (sl_sql l) = false) ->
     exists d', js_push_load member threshold i r db d l = Ok d' /\ held d' (push_load threshold i r db ss l)).
  Proof.
    intros i r db d ss l (H1 & H2 & H3 & H4 & H5) ID. unfold js_push_load, push_load.
    destruct (qlt (sl_max l) threshold). { split; [discriminate|]. intros _. exists d. split; [reflexivity|]. repeat (split; [assumption|]). assumption. }
    set (p := load_point r db l). set (sql := sl_sql l).
    assert (exists inner, own sql inner = found (dr_known d) db sql /\
      (forall db' sql', found (put db (put sql (length base + length ss) inner) (dr_known d)) db' sql' =
         if seqb db db' && seqb sql sql' then Some (length base + length ss) else found (dr_known d) db' sql') /\
      match own db (dr_known d) with
      | Some inner' => inner' = inner
      | None => inner = []
      end) as (inner & F1 & F2 & F3).
    { unfold found. destruct (own db (dr_known d)) as [inner|] eqn:O.
      - exists inner. split; [reflexivity|]. split; [|reflexivity]. intros db' sql'. rewrite own_put. destruct (seqb db db') eqn:E; cbn [andb].
        + apply seqb_eq in E as <-. rewrite O. rewrite own_put. reflexivity.
        + reflexivity.
      - exists []. split; [reflexivity|]. split; [|reflexivity]. intros db' sql'. rewrite own_put. destruct (seqb db db') eqn:E; cbn [andb].
        + apply seqb_eq in E as <-. rewrite O. rewrite own_put. reflexivity.
        + reflexivity. }
    set (f := fun inner : list (gostring * nat) => match own sql inner with
        | Some ref => Ok (push_ref d ref p)
        | None => if inherited sql then Panic
            else Ok (push_ref (new_series i r db l (enter_known db sql inner) d) (length (ph_series (dr_heap d))) p)
        end).
    match goal with |- (_ -> _ -> ?X = _) /\ _ => assert (X = f inner) as GO end.
    { destruct (own db (dr_known d)) as [inner'|]; [subst inner'; reflexivity|]. rewrite ID, F3. reflexivity. }
    rewrite H4 in F1. split.
    - intros _ I. rewrite GO. unfold f. rewrite F1, (pos_inherited _ _ _ H5 I). cbn [option_map]. now rewrite I.
    - intros I. specialize (I eq_refl).
      match goal with |- context [held _ ?u] => assert (u = match pos (is_of db sql) ss with Some n => push_at n p ss
        | None => ss ++ [{| se_db := db; se_name := sql; se_data := repeat (zero_point r) i ++ [p] |}] end) as -> by exact (upsert_pos db sql _ p ss) end.
      destruct (pos (is_of db sql) ss) as [n|] eqn:P; cbn [option_map] in F1.
      + exists (push_ref d (length base + n) p). split; [rewrite GO; unfold f; now rewrite F1|].
        split; [cbn [push_ref dr_heap ph_series]; rewrite H1; apply push_at_app|]. split; [exact H2|]. split; [cbn [push_ref dr_out]; now rewrite push_at_length|].
        split; [intros db' sql'; cbn [push_ref dr_known]; rewrite pos_push; apply H4|].
        intros s J. destruct (push_at_in _ _ _ _ J) as (s' & J' & ->). now apply H5.
      + exists (push_ref (new_series i r db l (enter_known db sql inner) d) (length (ph_series (dr_heap d))) p).
        split; [rewrite GO; unfold f; rewrite F1; now rewrite I|].
        assert (length (ph_series (dr_heap d)) = length base + length ss) as LE by (rewrite H1; apply app_length).
        split; [|split; [exact H2|split; [|split]]].
        * cbn [push_ref new_series enter_known dr_heap ph_series]. rewrite H1, <- app_assoc.
          replace (length (base ++ ss)) with (length base + length ss) by (now rewrite app_length).
          rewrite push_at_app. f_equal. replace (length ss) with (length ss + 0) by lia. rewrite push_at_app. reflexivity.
        * cbn [push_ref new_series enter_known dr_out]. rewrite H3, LE, app_length. cbn [length]. rewrite seq_app. reflexivity.
        * intros db' sql'. cbn [push_ref new_series enter_known dr_known]. rewrite LE, F2, pos_app, H4. unfold is_of at 3. cbn [se_db se_name].
          fold sql. destruct (seqb db db' && seqb sql sql') eqn:E.
          -- apply andb_true_iff in E as [E1 E2]. apply seqb_eq in E1 as <-. apply seqb_eq in E2 as <-. now rewrite P.
          -- destruct (pos (is_of db' sql') ss); reflexivity.
        * intros s J. apply in_app_iff in J as [J | [<- | []]]; [now apply H5|exact I].
  Qed.
  Definition bad_load (l : load) : Prop := qlt (sl_max l) threshold = false /\ inherited (sl_sql l) = true.
  Lemma loads_held : forall i r db ls d ss, held d ss -> inherited db = false ->
    ((exists l, In l ls /\ bad_load l) -> ofold (js_push_load member threshold i r db) ls d = Panic) /\
    ((forall l, In l ls -> ~ bad_load l) ->
     exists d', ofold (js_push_load member threshold i r db) ls d = Ok d' /\ held d' (fold_left (push_load threshold i r db) ls ss)).
  Proof.
    intros i r db ls. induction ls as [|l ls IH]; intros d ss H ID; cbn [ofold fold_left].
    - split; [intros (l & [] & _)|]. intros _. exists d. now split.
    - destruct (load_held i r db d ss l H ID) as [B G]. split.
      + intros (l' & [<- | I] & BL).
        * destruct BL as [B1 B2]. now rewrite (B B1 B2).
        * destruct (qlt (sl_max l) threshold) eqn:Q1.
          -- destruct G as (d' & -> & H'); [discriminate|]. cbn [obind]. apply (IH d' _ H' ID). now exists l'.
          -- destruct (inherited (sl_sql l)) eqn:Q2; [now rewrite (B eq_refl eq_refl)|].
             destruct G as (d' & -> & H'); [reflexivity|]. cbn [obind]. apply (IH d' _ H' ID). now exists l'.
      + intros N. destruct G as (d' & -> & H').
        { intros Q1. destruct (inherited (sl_sql l)) eqn:Q2; [|reflexivity]. destruct (N l (or_introl eq_refl)). now split. }
        cbn [obind]. apply (IH d' _ H' ID). intros l' I. apply N. now right.
  Qed.
  Definition bad_db (x : db_load) : Prop := includes targets (dl_name x) = true /\ exists l, In l (dl_sqls x) /\ bad_load l.
  Lemma bad_load_dec : forall l, bad_load l \/ ~ bad_load l.
  Proof. intros l. unfold bad_load. destruct (qlt (sl_max l) threshold), (inherited (sl_sql l)); intuition congruence. Qed.
  Lemma some_dec : forall A (P : A -> Prop) l, (forall a, P a \/ ~ P a) -> (exists a, In a l /\ P a) \/ (forall a, In a l -> ~ P a).
  Proof.
    intros A P l D. induction l as [|a l IH]; [right; intros a []|]. destruct (D a) as [P1 | P1]; [left; exists a; split; [now left|exact P1]|].
    destruct IH as [(b & I & P2) | N]; [left; exists b; split; [now right|exact P2]|]. right. intros b [<- | I]; auto.
  Qed.
  Lemma bad_db_dec : forall x, bad_db x \/ ~ bad_db x.
  Proof.
    intros x. unfold bad_db. destruct (includes targets (dl_name x)); [|right; intros [E _]; discriminate].
    destruct (some_dec _ bad_load (dl_sqls x) bad_load_dec) as [E | N]; [left; now split|]. right. intros [_ (l & I & B)]. exact (N l I B).
  Qed.
  Context (clean : forall t, In t targets -> inherited t = false).
  Lemma includes_in : forall l x, includes l x = true <-> In x l.
  Proof.
    intros l x. unfold includes. rewrite existsb_exists. split.
    - intros (y & I & E). now apply seqb_eq in E as ->.
    - intros I. exists x. split; [exact I|apply seqb_refl'].
  Qed.
  Lemma dbs_held : forall i r xs d ss, held d ss ->
    ((exists x, In x xs /\ bad_db x) -> ofold (js_push_db member targets threshold i r) xs d = Panic) /\
    ((forall x, In x xs -> ~ bad_db x) ->
     exists d', ofold (js_push_db member targets threshold i r) xs d = Ok d' /\ held d' (fold_left (push_db targets threshold i r) xs ss)).
  Proof.
    intros i r xs. induction xs as [|x xs IH]; intros d ss H; cbn [ofold fold_left].
    - split; [intros (x & [] & _)|]. intros _. exists d. now split.
    - unfold js_push_db at 1 3, push_db at 2. destruct (includes targets (dl_name x)) eqn:T.
      + assert (inherited (dl_name x) = false) as ID by (apply clean; now apply includes_in).
        destruct (loads_held i r (dl_name x) (dl_sqls x) d ss H ID) as [B G]. split.
        * intros (x' & I & BX). destruct (some_dec _ bad_load (dl_sqls x) bad_load_dec) as [E | N]; [now rewrite (B E)|].
          destruct (G N) as (d' & -> & H'). cbn [obind]. apply (IH d' _ H'). destruct I as [<- | I]; [|now exists x'].
          destruct BX as [_ (l & I & BL)]. destruct (N l I BL).
        * intros N. destruct G as (d' & -> & H'). { intros l I BL. apply (N x (or_introl eq_refl)). split; [exact T|]. now exists l. }
          cbn [obind]. apply (IH d' _ H'). intros x' I. apply N. now right.
      + cbn [obind]. destruct (IH d ss H) as [B G]. split.
        * intros (x' & [<- | I] & BX); [destruct BX; congruence|]. apply B. now exists x'.
        * intros N. apply G. intros x' I. apply N. now right.
  Qed.

  Lemma fill_heap : forall i r b a d known out, dr_heap d = {| ph_series := a ++ b; ph_left := ph_left h |} -> dr_known d = known -> dr_out d = out ->
    fold_left (fun d ref => match nth_error (ph_series (dr_heap d)) ref with
      | Some s => if Nat.ltb (length (se_data s)) (i + 1) then push_ref d ref (zero_point r) else d
      | None => d end) (seq (length a) (length b)) d =
    {| dr_heap := {| ph_series := a ++ map (fill i r) b; ph_left := ph_left h |}; dr_known := known; dr_out := out |}.
  Proof.
    intros i r b. induction b as [|s b IH]; intros a d known out H1 H2 H3; cbn [length seq fold_left map].
    - destruct d as [hp kn ou]. cbn in *. now rewrite H1, H2, H3.
    - rewrite H1 at 1. cbn [ph_series]. rewrite nth_error_app2, Nat.sub_diag by lia. cbn [nth_error].
      assert (forall x : series, a ++ x :: map (fill i r) b = (a ++ [x]) ++ map (fill i r) b) as AS by (intros x; now rewrite <- app_assoc).
      rewrite AS. replace (S (length a)) with (length (a ++ [fill i r s])) by (rewrite app_length; cbn; lia).
      unfold fill at 1 2. destruct (Nat.ltb (length (se_data s)) (i + 1)).
      + apply IH; [|exact H2|exact H3]. cbn [push_ref dr_heap]. rewrite H1. cbn [ph_series ph_left]. f_equal.
        replace (length a) with (length a + 0) by lia. rewrite push_at_app. cbn [push_at]. now rewrite <- app_assoc.
      + apply IH; [|exact H2|exact H3]. rewrite H1. f_equal. now rewrite <- app_assoc.
  Qed.
  Lemma fill_held : forall i r d ss, held d ss -> held (js_fill i r d) (map (fill i r) ss).
  Proof.
    intros i r d ss (H1 & H2 & H3 & H4 & H5). unfold js_fill. rewrite H3 at 1.
    rewrite (fill_heap i r ss base d (dr_known d) (dr_out d)); [|destruct (dr_heap d); cbn in *; now rewrite H1, H2|reflexivity|reflexivity].
    split; [reflexivity|]. split; [reflexivity|]. split; [cbn [dr_out]; now rewrite map_length|]. split.
    - intros db sql. cbn [dr_known]. rewrite H4, pos_map. f_equal.
      assert (forall s, is_of db sql (fill i r s) = is_of db sql s) as E by (intros s; unfold fill; destruct (Nat.ltb _ _); reflexivity).
      clear - E. induction ss as [|s ss IH]; cbn [pos]; [reflexivity|]. rewrite E. destruct (is_of db sql s); [reflexivity|]. now rewrite IH.
    - intros s I. apply in_map_iff in I as (s' & <- & I). unfold fill. destruct (Nat.ltb _ _); cbn [se_name]; now apply H5.
  Qed.
  Definition bad_row (r : row) : Prop := exists x, In x (tl_dbs r) /\ bad_db x.
  Lemma rows_held : forall rows i d ss, held d ss ->
    ((exists r, In r rows /\ bad_row r) -> js_push_rows member targets threshold i rows d = Panic) /\
    ((forall r, In r rows -> ~ bad_row r) ->
     exists d', js_push_rows member targets threshold i rows d = Ok d' /\ held d' (push_rows targets threshold i rows ss)).
  Proof.
    intros rows. induction rows as [|r rows IH]; intros i d ss H; cbn [js_push_rows push_rows].
    - split; [intros (r & [] & _)|]. intros _. exists d. now split.
    - destruct (dbs_held i r (tl_dbs r) d ss H) as [B G]. split.
      + intros (r' & I & BR). destruct (some_dec _ bad_db (tl_dbs r) bad_db_dec) as [E | N]; [now rewrite (B E)|].
        destruct (G N) as (d' & -> & H'). cbn [obind]. apply (IH (S i) (js_fill i r d') _ (fill_held i r d' _ H')).
        destruct I as [<- | I]; [|now exists r']. destruct BR as (x & I & BX). destruct (N x I BX).
      + intros N. destruct G as (d' & -> & H'). { intros x I BX. apply (N r (or_introl eq_refl)). now exists x. }
        cbn [obind]. apply (IH (S i) (js_fill i r d') _ (fill_held i r d' _ H')). intros r' I. apply N. now right.
  Qed.
  Lemma held_shows : forall d ss, held d ss ->
    flat_map (fun ref => match nth_error (ph_series (dr_heap d)) ref with Some s => [s] | None => [] end) (dr_out d) = ss.
  Proof.
    intros d ss (H1 & _ & H3 & _). rewrite H1, H3. clear. generalize base as a. induction ss as [|s ss IH]; intros a; [reflexivity|].
    cbn [length seq flat_map]. rewrite nth_error_app2, Nat.sub_diag by lia. cbn [nth_error app]. f_equal.
    specialize (IH (a ++ [s])). rewrite app_length in IH. cbn [length] in IH. replace (length a + 1) with (S (length a)) in IH by lia.
    rewrite <- app_assoc in IH. exact IH.
  Qed.
End Series.
