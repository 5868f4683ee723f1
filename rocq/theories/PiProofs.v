(** Proofs about the hourly loads. *)
From Coq Require Import String List NArith ZArith Bool Lia Arith.
From Verif Require Import Base Pi PiSpec.
From Verif Require OtelSpec.
Import ListNotations.
Local Open Scope nat_scope.

Lemma exactly_filter : forall {A} (P : A -> Prop) (p : A -> bool), (forall x, p x = true <-> P x) ->
    forall l, exactly P l (filter p l).
Proof.
  intros A P p H l. induction l as [|x l IH]; cbn [filter]; [constructor|].
  destruct (p x) eqn:E; constructor; auto; [now apply H|]. rewrite <- H. congruence.
Qed.
Lemma exactly_fun : forall {A} (P : A -> Prop) l a, exactly P l a -> forall b, exactly P l b -> a = b.
Proof.
  intros A P l a H. induction H; intros b Hb; inversion Hb; subst; try contradiction; f_equal; auto.
Qed.
Lemma exactly_In : forall {A} (P : A -> Prop) l a, exactly P l a -> forall x, In x a <-> In x l /\ P x.
Proof.
  intros A P l a H. induction H as [|x l l' HP _ IH|x l l' HP _ IH]; intros y; simpl.
  - tauto.
  - rewrite IH. split; [intros [<-|[H1 H2]]; auto|intros [[<-|H1] H2]; auto].
  - rewrite IH. split; [intros [H1 H2]; auto|intros [[<-|H1] H2]; auto]. contradiction.
Qed.
Lemma exactly_ext : forall {A} (P Q : A -> Prop) l a, (forall x, In x l -> (P x <-> Q x)) -> exactly P l a -> exactly Q l a.
Proof.
  intros A P Q l a H E. induction E as [|x l l' HP _ IH|x l l' HP _ IH]; constructor; try apply IH; intros;
    try (apply H; simpl; auto; fail); try (apply (proj1 (H x (or_introl eq_refl))); exact HP).
  intros HQ. apply HP, (H x (or_introl eq_refl)); exact HQ.
Qed.
Lemma exactly_dec : forall {A} (P : A -> Prop) l a, exactly P l a -> forall x, In x l -> P x \/ ~ P x.
Proof.
  intros A P l a H. induction H as [|x l l' HP _ IH|x l l' HP _ IH]; intros y [].
  - subst. now left.
  - now apply IH.
  - subst. now right.
  - now apply IH.
Qed.
Lemma flat_map_single : forall A B (f : A -> B) l, flat_map (fun x => [f x]) l = map f l.
Proof. intros A B f l. induction l; simpl; congruence. Qed.
Lemma exactly_length : forall {A} (P : A -> Prop) l a, exactly P l a -> length a <= length l.
Proof. intros A P l a H. induction H; simpl; lia. Qed.

Lemma filter_length : forall {A} (p : A -> bool) l, length (filter p l) <= length l.
Proof. intros A p l. induction l as [|x l IH]; simpl; [lia|]. destruct (p x); simpl; lia. Qed.

Section Up.
  Context {X E K : Type} (eqb : K -> K -> bool) (eqb_ok : forall a b, eqb a b = true <-> a = b).
  Context (kx : X -> K) (key : E -> K) (new : X -> E) (upd : X -> E -> E).
  Context (key_new : forall x, key (new x) = kx x) (key_upd : forall x e, key (upd x e) = key e).

  Definition ups (m : list E) (x : X) : list E := upsert (fun e => eqb (key e) (kx x)) (new x) (upd x) m.

  Lemma key_fold : forall xs e, key (fold_left (fun e x => upd x e) xs e) = key e.
  Proof. induction xs as [|x xs IH]; intros e; simpl; [reflexivity|]. rewrite IH. apply key_upd. Qed.

  Lemma ups_split : forall xs e m,
      fold_left ups xs (e :: m) =
      fold_left (fun e x => upd x e) (filter (fun y => eqb (key e) (kx y)) xs) e ::
      fold_left ups (filter (fun y => negb (eqb (key e) (kx y))) xs) m.
  Proof.
    induction xs as [|x xs IH]; intros e m; [reflexivity|]. cbn [fold_left filter]. unfold ups at 2. cbn [upsert].
    destruct (eqb (key e) (kx x)) eqn:Ek; cbn [negb fold_left].
    - rewrite IH. rewrite key_upd. reflexivity.
    - rewrite IH. reflexivity.
  Qed.

  Lemma eqb_false : forall a b, eqb a b = false <-> a <> b.
  Proof.
    intros a b. split.
    - intros H C. apply eqb_ok in C. congruence.
    - intros H. destruct (eqb a b) eqn:Ek; [|reflexivity]. apply eqb_ok in Ek. contradiction.
  Qed.

  Context (content : list X -> E -> Prop)
    (content_ok : forall x g, content (x :: g) (fold_left (fun e x => upd x e) g (new x))).

  Lemma grouped_ups : forall n xs, length xs <= n -> grouped kx key content xs (fold_left ups xs []).
  Proof.
    induction n as [|n IH]; intros [|x xs] Hn; try (simpl in Hn; lia); try constructor.
    cbn [fold_left]. unfold ups at 2. cbn [upsert]. rewrite ups_split.
    apply gr_cons with (same := filter (fun y => eqb (key (new x)) (kx y)) xs)
                       (others := filter (fun y => negb (eqb (key (new x)) (kx y))) xs).
    - apply exactly_filter. intros y. rewrite eqb_ok, key_new. split; congruence.
    - apply exactly_filter. intros y. rewrite negb_true_iff, eqb_false, key_new. split; congruence.
    - rewrite key_fold. apply key_new.
    - apply content_ok.
    - apply IH. simpl in Hn. pose proof (filter_length (fun y => negb (eqb (key (new x)) (kx y))) xs). lia.
  Qed.
End Up.

Section Look.
  Context {X E K : Type} (eqb : K -> K -> bool) (eqb_ok : forall a b, eqb a b = true <-> a = b).
  Context (kx : X -> K) (key : E -> K) (content : list X -> E -> Prop).

  Lemma grouped_find : forall xs es, grouped kx key content xs es -> forall k,
      (find (fun e => eqb (key e) k) es = None /\ exactly (fun x => kx x = k) xs []) \/
      (exists e g, find (fun e => eqb (key e) k) es = Some e /\ exactly (fun x => kx x = k) xs g /\ content g e /\ key e = k).
  Proof.
    intros xs es H. induction H as [|x xs same others e es H1 H2 H3 H4 H5 IH]; intros k.
    - left. split; [reflexivity|constructor].
    - cbn [find]. destruct (eqb (key e) k) eqn:Ek.
      + right. apply eqb_ok in Ek. exists e, (x :: same). repeat split; auto.
        apply OtelSpec.sw_take; [congruence|]. eapply exactly_ext; [|exact H1]. intros y _. simpl. rewrite <- Ek, H3. reflexivity.
      + assert (Hk : kx x <> k). { intros C. rewrite <- H3 in C. apply eqb_ok in C. congruence. }
        assert (G : forall g, exactly (fun y => kx y = k) others g -> exactly (fun y => kx y = k) xs g).
        { intros g. revert g. clear - H2 Hk. induction H2 as [|y l l' HP _ IH|y l l' HP _ IH]; intros g Hg.
          - exact Hg.
          - inversion Hg; subst; constructor; auto.
          - constructor; [|now apply IH]. intros C. apply HP. intros C2. congruence. }
        destruct (IH k) as [[F N]|(e' & g & F & N & C & Q)].
        * left. split; [exact F|]. apply OtelSpec.sw_skip; [exact Hk|]. now apply G.
        * right. exists e', g. repeat split; auto. apply OtelSpec.sw_skip; [exact Hk|]. now apply G.
  Qed.
End Look.

Lemma loc_eqb_ok : forall a b, loc_eqb a b = true <-> a = b.
Proof.
  intros [|i x] [|j y]; simpl; split; try congruence; try discriminate.
  - rewrite andb_true_iff, Nat.eqb_eq, Z.eqb_eq. intros [-> ->]. reflexivity.
  - intros H. inversion H. now rewrite Nat.eqb_refl, Z.eqb_refl.
Qed.
Lemma time_eqb_ok : forall a b, time_eqb a b = true <-> a = b.
Proof.
  intros [a la] [b lb]. unfold time_eqb. simpl. rewrite andb_true_iff, Z.eqb_eq, loc_eqb_ok.
  split; [intros [-> ->]; reflexivity|intros H; inversion H; auto].
Qed.

Section L.
  Context {V : Type} (vadd : V -> V -> V) (vlt : V -> V -> bool) (WO : weak_order vlt).

  Lemma fold_sql : forall g l, let r := fold_left (fun l s => upd_sql vadd vlt s l) g l in
      sl_tok r = sl_tok l /\ sl_sum r = fold_left vadd (map s_value g) (sl_sum l) /\
      (sl_max r = sl_max l \/ In (sl_max r) (map s_value g)) /\
      vlt (sl_max r) (sl_max l) = false /\
      (forall s, In s g -> vlt (sl_max r) (s_value s) = false).
  Proof.
    destruct WO as [W1 W2].
    assert (W0 : forall a, vlt a a = false). { intros a. destruct (vlt a a) eqn:E; [|reflexivity]. now rewrite (W1 _ _ E) in E. }
    induction g as [|s g IH]; intros l r.
    - subst r. simpl. split; [reflexivity|]. split; [reflexivity|]. split; [now left|]. split; [apply W0|]. intros s [].
    - subst r. cbn [fold_left map]. destruct (IH (upd_sql vadd vlt s l)) as (H1 & H2 & H3 & H4 & H5).
      remember (fold_left (fun l s => upd_sql vadd vlt s l) g (upd_sql vadd vlt s l)) as r eqn:Er. clear Er.
      split; [exact H1|]. split; [exact H2|]. cbn [upd_sql sl_max] in H3, H4.
      destruct (vlt (sl_max l) (s_value s)) eqn:El.
      + split; [right; destruct H3 as [->|H3]; [now left|now right]|].
        split; [|intros s' [<-|Hs]; [exact H4|now apply H5]].
        apply (W2 _ (s_value s)); [exact H4|]. now apply W1.
      + split; [destruct H3 as [->|H3]; [now left|right; now right]|].
        split; [exact H4|]. intros s' [<-|Hs]; [|now apply H5]. apply (W2 _ (sl_max l)); assumption.
  Qed.
  Lemma sql_ok : forall x g, sql_content vadd vlt (x :: g) (fold_left (fun l s => upd_sql vadd vlt s l) g (new_sql x)).
  Proof.
    intros x g. destruct (fold_sql g (new_sql x)) as (H1 & H2 & H3 & H4 & H5).
    exists x, g. split; [reflexivity|]. split; [exact H1|]. split; [exact H2|]. split.
    - simpl. destruct H3 as [->|H3]; [now left|now right].
    - intros s [<-|Hs]; [exact H4|now apply H5].
  Qed.

  Lemma upd_db_fold : forall g d, fold_left (fun d s => upd_db vadd vlt s d) g d =
      {| dl_name := dl_name d;
         dl_sqls := fold_left (ups seqb s_sql sl_sql new_sql (upd_sql vadd vlt)) g (dl_sqls d) |}.
  Proof. induction g as [|s g IH]; intros d; simpl; [now destruct d|]. rewrite IH. reflexivity. Qed.
  Lemma db_ok : forall x g, db_content vadd vlt (x :: g) (fold_left (fun d s => upd_db vadd vlt s d) g (new_db vadd vlt x)).
  Proof.
    intros x g. rewrite upd_db_fold. unfold db_content, new_db, upd_db. cbn [dl_sqls].
    change (upsert (fun l => seqb (sl_sql l) (s_sql x)) (new_sql x) (upd_sql vadd vlt x) [])
      with (ups seqb s_sql sl_sql new_sql (upd_sql vadd vlt) [] x).
    change (fold_left ?f g (?f [] x)) with (fold_left f (x :: g) []).
    eapply grouped_ups with (n := length (x :: g)); auto using seqb_eq, sql_ok.
  Qed.
  Lemma upd_time_fold : forall g t, fold_left (fun t s => upd_time vadd vlt s t) g t =
      {| tl_time := tl_time t;
         tl_dbs := fold_left (ups seqb s_db dl_name (new_db vadd vlt) (upd_db vadd vlt)) g (tl_dbs t) |}.
  Proof. induction g as [|s g IH]; intros t; simpl; [now destruct t|]. rewrite IH. reflexivity. Qed.
  Lemma time_ok : forall x g, hour_content vadd vlt (x :: g) (tl_dbs (fold_left (fun t s => upd_time vadd vlt s t) g (new_time vadd vlt x))).
  Proof.
    intros x g. rewrite upd_time_fold. unfold hour_content, new_time, upd_time. cbn [tl_dbs].
    change (upsert (fun l => seqb (dl_name l) (s_db x)) (new_db vadd vlt x) (upd_db vadd vlt x) [])
      with (ups seqb s_db dl_name (new_db vadd vlt) (upd_db vadd vlt) [] x).
    change (fold_left ?f g (?f [] x)) with (fold_left f (x :: g) []).
    eapply grouped_ups with (n := length (x :: g)); auto using seqb_eq, db_ok.
  Qed.
  Lemma table_ok : forall ss, grouped (fun s => normalize_by_hour (s_time s)) tl_time
                                (fun g t => hour_content vadd vlt g (tl_dbs t)) ss (fold_left (add_sample vadd vlt) ss []).
  Proof.
    intros ss.
    change (add_sample vadd vlt) with (ups time_eqb (fun s => normalize_by_hour (s_time s)) tl_time (new_time vadd vlt) (upd_time vadd vlt)).
    eapply grouped_ups with (n := length ss); auto using time_eqb_ok, time_ok.
  Qed.

  (** The rows *)
  Lemma rows_spec : forall fuel tbl t e, (t_ns e - t_ns t < Z.of_nat fuel * hour)%Z ->
      exists l, load_rows fuel tbl t e = Some l /\
        forall k, nth_error l k =
          let tk := tadd t (Z.of_nat k * hour) in
          if Z.leb (t_ns tk) (t_ns e)
          then Some (match find (fun r => time_eqb (tl_time r) tk) tbl with
                     | Some r => r | None => {| tl_time := tk; tl_dbs := @nil (@db_load V) |} end)
          else None.
  Proof.
    assert (Hh : (0 < hour)%Z) by (unfold hour; lia).
    induction fuel as [|fuel IH]; intros tbl t e Hf; cbn [load_rows].
    - destruct (Z.ltb_spec (t_ns e) (t_ns t)) as [H|H]; [|lia]. exists []. split; [reflexivity|]. intros k. cbn [tadd t_ns].
      assert (0 <= Z.of_nat k * hour)%Z by nia. cbv zeta. destruct (Z.leb_spec (t_ns t + Z.of_nat k * hour) (t_ns e)); [lia|]. now destruct k.
    - destruct (Z.ltb_spec (t_ns e) (t_ns t)) as [H|H].
      + exists []. split; [reflexivity|]. intros k. cbn [tadd t_ns].
        assert (0 <= Z.of_nat k * hour)%Z by nia. cbv zeta. destruct (Z.leb_spec (t_ns t + Z.of_nat k * hour) (t_ns e)); [lia|]. now destruct k.
      + destruct (IH tbl (tadd t hour) e) as (l & El & HN); [cbn [tadd t_ns]; lia|]. rewrite El.
        eexists. split; [reflexivity|]. intros [|k].
        * cbn [nth_error]. assert (E0 : tadd t (Z.of_nat 0 * hour) = t). { destruct t as [tn tz]. unfold tadd. simpl. f_equal. lia. }
          rewrite E0. cbv zeta. destruct (Z.leb_spec (t_ns t) (t_ns e)); [reflexivity|lia].
        * cbn [nth_error]. rewrite HN. assert (E0 : tadd (tadd t hour) (Z.of_nat k * hour) = tadd t (Z.of_nat (S k) * hour)).
          { destruct t as [tn tz]. unfold tadd. cbn [t_ns t_loc]. f_equal. lia. }
          rewrite E0. reflexivity.
  Qed.
  Lemma rows_fuel : forall fuel tbl t e l, @load_rows V fuel tbl t e = Some l ->
      forall fuel', fuel <= fuel' -> load_rows fuel' tbl t e = Some l.
  Proof.
    induction fuel as [|fuel IH]; intros tbl t e l H [|fuel'] Hf; cbn [load_rows] in *; destruct (Z.ltb (t_ns e) (t_ns t)); auto; try lia; try discriminate.
    destruct (load_rows fuel tbl (tadd t hour) e) as [r|] eqn:E; [|discriminate]. rewrite (IH _ _ _ _ E) by lia. exact H.
  Qed.
End L.

Lemma normalize_hour : forall t, clock_hour (offset_of (t_loc t)) (t_ns t) (t_ns (normalize_by_hour t)).
Proof.
  intros t. unfold clock_hour, normalize_by_hour. cbn [t_ns]. change 3600000000000%Z with hour.
  assert (Hh : (0 < hour)%Z) by (unfold hour; lia).
  set (o := offset_of (t_loc t)). pose proof (Z.div_mod (t_ns t + o) hour ltac:(lia)) as D.
  pose proof (Z.mod_pos_bound (t_ns t + o) hour Hh) as B. split; [lia|].
  exists ((t_ns t + o) / hour)%Z. lia.
Qed.
Lemma clock_hour_fun : forall o t a b, clock_hour o t a -> clock_hour o t b -> a = b.
Proof. intros o t a b [[A1 A2] [p A3]] [[B1 B2] [q B3]]. nia. Qed.
Lemma clock_hour_shift : forall o t h, (3600000000000 | o)%Z -> clock_hour o t h <-> clock_hour 0 t h.
Proof.
  intros o t h [k Hk]. unfold clock_hour. split; intros [H [p Hp]]; (split; [exact H|]).
  - exists (p - k)%Z. lia.
  - exists (p + k)%Z. lia.
Qed.
Lemma normalize_utc : forall t h, t_loc t = UTC ->
    normalize_by_hour t = {| t_ns := h; t_loc := UTC |} <-> clock_hour 0 (t_ns t) h.
Proof.
  intros t h HU. pose proof (normalize_hour t) as N. rewrite HU in N. cbn [offset_of] in N. split.
  - intros E. now rewrite E in N.
  - intros C. pose proof (clock_hour_fun _ _ _ _ C N) as ->. unfold normalize_by_hour. cbn [t_ns]. now rewrite HU.
Qed.

Lemma samples_of_in : forall V (avgs : list (@load_avg V)) ss, samples_in avgs ss -> ss = samples_of avgs.
Proof.
  intros V avgs ss H. induction H as [| |db sql tok v t vts avgs ss H IH]; [reflexivity|assumption|].
  rewrite IH. reflexivity.
Qed.
Lemma samples_of_ok : forall V (avgs : list (@load_avg V)), samples_in avgs (samples_of avgs).
Proof.
  intros V avgs. induction avgs as [|[db sql tok vts] avgs IH]; [constructor|].
  induction vts as [|[v t] vts IHv]; [constructor; exact IH|]. cbn. constructor. exact IHv.
Qed.

(** ** The rows as described *)
Section H.
  Context {V : Type} (vadd : V -> V -> V) (vlt : V -> V -> bool).

  Lemma convert_hourly : forall fuel start end_ avgs, weak_order vlt ->
      (t_ns end_ - t_ns start < (Z.of_nat fuel - 1) * hour)%Z ->
      exists rows, convert_loads vadd vlt fuel start end_ avgs = Some rows /\ hourly vadd vlt start end_ avgs rows.
  Proof.
    intros fuel start end_ avgs WO Hf. unfold convert_loads.
    pose proof (normalize_hour start) as N. set (h0 := t_ns (normalize_by_hour start)) in *.
    destruct (rows_spec fuel (load_table vadd vlt avgs) (utc (normalize_by_hour start)) end_) as (rows & E & HN).
    { cbn [utc t_ns]. fold h0. destruct N as [[N1 N2] _]. unfold hour in *. lia. }
    exists rows. split; [exact E|]. exists (samples_of avgs), h0. split; [apply samples_of_ok|]. split; [exact N|].
    change 3600000000000%Z with hour. cbn [utc tadd t_ns t_loc] in HN. fold h0 in HN. split.
    - intros k. specialize (HN k). cbv zeta in HN. rewrite <- nth_error_Some, HN.
      destruct (Z.leb_spec (h0 + Z.of_nat k * hour) (t_ns end_)); split; intros; try congruence; lia.
    - intros k row Hk. rewrite HN in Hk. cbv zeta in Hk. destruct (Z.leb_spec (h0 + Z.of_nat k * hour) (t_ns end_)) as [_|]; [|discriminate].
      set (hk := (h0 + Z.of_nat k * hour)%Z) in *.
      change (tadd (utc (normalize_by_hour start)) (Z.of_nat k * hour)) with {| t_ns := hk; t_loc := UTC |} in Hk.
      assert (Dv : exists q, (hk = q * hour - offset_of (t_loc start))%Z).
      { destruct N as [_ [q Hq]]. exists (q + Z.of_nat k)%Z. unfold hk, hour in *. lia. }
      assert (G : forall g, exactly (fun s => normalize_by_hour (s_time s) = {| t_ns := hk; t_loc := UTC |}) (samples_of avgs) g ->
                            exactly (@in_hour V hk) (samples_of avgs) g).
      { intros g. apply exactly_ext. intros s _. unfold in_hour. split.
        - intros En. assert (HU : t_loc (s_time s) = UTC). { change (t_loc (s_time s)) with (t_loc (normalize_by_hour (s_time s))). now rewrite En. }
          split; [exact HU|]. now apply normalize_utc.
        - intros [HU C]. now apply normalize_utc. }
      destruct (grouped_find _ time_eqb_ok _ _ _ _ _ (table_ok vadd vlt WO (samples_of avgs)) {| t_ns := hk; t_loc := UTC |})
        as [[F X]|(e & g & F & X & C & Q)]; unfold load_table in Hk; rewrite F in Hk; inversion Hk; subst row; clear Hk.
      + split; [reflexivity|]. exists []. split; [now apply G|]. constructor.
      + split; [exact Q|]. exists g. split; [now apply G|exact C].
  Qed.

  Context (zero : V) (A : forall a b c, vadd a (vadd b c) = vadd (vadd a b) c) (C : forall a b, vadd a b = vadd b a)
    (U : forall a, vadd zero a = a).

  Lemma total_app : forall a b, total vadd zero (a ++ b) = vadd (total vadd zero a) (total vadd zero b).
  Proof.
    unfold total. induction a as [|x a IH]; intros b; simpl; [now rewrite U|]. now rewrite IH, A.
  Qed.
  Lemma fold_total : forall l a, fold_left vadd l a = vadd a (total vadd zero l).
  Proof.
    unfold total. induction l as [|x l IH]; intros a; simpl; [now rewrite C, U|]. now rewrite IH, A.
  Qed.
  Lemma total_split : forall (X : Type) (f : X -> V) (P Q R : X -> Prop) l a b c,
      exactly P l a -> exactly Q l b -> exactly R l c ->
      (forall x, In x l -> (R x <-> P x \/ Q x) /\ ~ (P x /\ Q x)) ->
      total vadd zero (map f c) = vadd (total vadd zero (map f a)) (total vadd zero (map f b)).
  Proof.
    intros X f P Q R l. induction l as [|x l IH]; intros a b c Ha Hb Hc HH.
    - inversion Ha; inversion Hb; inversion Hc; subst. simpl. now rewrite U.
    - assert (H0 := HH x (or_introl eq_refl)). assert (HT : forall y, In y l -> (R y <-> P y \/ Q y) /\ ~ (P y /\ Q y)) by (intros y Hy; apply HH; now right).
      unfold total in *. inversion Ha; subst; inversion Hb; subst; inversion Hc; subst; try tauto; cbn [map fold_right].
      + erewrite IH; [|eassumption|eassumption|eassumption|exact HT]. now rewrite A.
      + erewrite IH; [|eassumption|eassumption|eassumption|exact HT]. rewrite !A. f_equal. apply C.
      + erewrite IH; [|eassumption|eassumption|eassumption|exact HT]. reflexivity.
  Qed.
  Lemma grouped_total : forall (X E K : Type) (kx : X -> K) (key : E -> K) (content : list X -> E -> Prop) (f : X -> V) (vals : E -> list V),
      (forall g e, content g e -> total vadd zero (vals e) = total vadd zero (map f g)) ->
      forall xs es, grouped kx key content xs es -> total vadd zero (flat_map vals es) = total vadd zero (map f xs).
  Proof.
    intros X E K kx key content f vals HC xs es H. induction H as [|x xs same others e es H1 H2 H3 H4 H5 IH]; [reflexivity|].
    cbn [flat_map map]. rewrite total_app, (HC _ _ H4), IH. cbn [map]. unfold total at 1 3. cbn [fold_right]. fold (total vadd zero (map f same)) (total vadd zero (map f xs)).
    rewrite <- A. f_equal. symmetry.
    eapply total_split with (P := fun y => kx y = kx x) (Q := fun y => kx y <> kx x) (R := fun _ => True) (l := xs); eauto.
    - clear. induction xs as [|y xs IH]; constructor; auto.
    - intros y Hy. split; [|tauto]. split; [intros _|tauto]. exact (exactly_dec _ _ _ H1 y Hy).
  Qed.

  Lemma hour_total : forall g dbs, hour_content vadd vlt g dbs ->
      total vadd zero (flat_map (fun d => map sl_sum (dl_sqls d)) dbs) = total vadd zero (map s_value g).
  Proof.
    intros g dbs. apply grouped_total. clear g dbs. intros g d Hd. rewrite <- flat_map_single. revert Hd. apply grouped_total.
    intros g' l (x & o & -> & _ & HS & _). cbn [map]. unfold total. cbn [fold_right]. rewrite (C _ zero), U, HS. apply fold_total.
  Qed.

  Definition spanned (a b : Z) (s : @sample V) : Prop := (a <= t_ns (s_time s) < b)%Z.
  Lemma rows_total : forall rows h0 ss g,
      (forall s, In s ss -> t_loc (s_time s) = UTC) -> (hour | h0)%Z ->
      (forall k row, nth_error rows k = Some row -> exists g, exactly (in_hour (h0 + Z.of_nat k * hour)) ss g /\ hour_content vadd vlt g (tl_dbs row)) ->
      exactly (spanned h0 (h0 + Z.of_nat (length rows) * hour)) ss g ->
      total vadd zero (all_sums rows) = total vadd zero (map s_value g).
  Proof.
    assert (Hh : (0 < hour)%Z) by (unfold hour; lia).
    induction rows as [|r rows IH]; intros h0 ss g HU HD HR HG.
    - assert (g = []) as ->; [|reflexivity]. destruct g as [|s g]; [reflexivity|]. exfalso.
      destruct (proj1 (exactly_In _ _ _ HG s) (or_introl eq_refl)) as [_ B]. unfold spanned in B. simpl in B. lia.
    - unfold all_sums. cbn [flat_map]. rewrite total_app. fold (all_sums rows).
      destruct (HR 0 r eq_refl) as (g0 & E0 & C0). rewrite (hour_total _ _ C0).
      pose (p := fun s : @sample V => ((h0 + hour <=? t_ns (s_time s)) && (t_ns (s_time s) <? h0 + hour + Z.of_nat (length rows) * hour))%Z).
      assert (E1 : exactly (spanned (h0 + hour) (h0 + hour + Z.of_nat (length rows) * hour)) ss (filter p ss)).
      { apply exactly_filter. intros s. unfold p, spanned. rewrite andb_true_iff, Z.leb_le, Z.ltb_lt. tauto. }
      rewrite (IH (h0 + hour)%Z ss (filter p ss)); auto.
      + symmetry. eapply total_split; [exact E0|exact E1|exact HG|]. intros s Hs. unfold in_hour, spanned, clock_hour.
        rewrite (HU s Hs). change 3600000000000%Z with hour. replace (Z.of_nat 0 * hour)%Z with 0%Z by lia.
        cbn [length]. rewrite Nat2Z.inj_succ.
        assert (D : (hour | h0 + 0 + 0)%Z) by (now rewrite !Z.add_0_r). assert (0 <= Z.of_nat (length rows) * hour)%Z by nia.
        split; [split|].
        * intros B. destruct (Z_lt_le_dec (t_ns (s_time s)) (h0 + hour)); [left; split; [reflexivity|split; [lia|exact D]]|right; lia].
        * intros [(_ & B & _)|B]; lia.
        * intros [(_ & B & _) B']. lia.
      + now apply Z.divide_add_r; [|apply Z.divide_refl].
      + intros k row Hk. destruct (HR (S k) row Hk) as (g' & E' & C'). exists g'. split; [|exact C'].
        replace (h0 + hour + Z.of_nat k * hour)%Z with (h0 + Z.of_nat (S k) * hour)%Z by lia. exact E'.
  Qed.
End H.
