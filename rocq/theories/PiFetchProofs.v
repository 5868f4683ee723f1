(** Proofs about the conversion of metrics and the half-day requests. *)
From Coq Require Import String List NArith ZArith Bool Lia Arith.
From Verif Require Import Base Pi PiSpec PiProofs.
From Verif Require OtelSpec.
Import ListNotations.
Local Open Scope nat_scope.

Lemma flat_map_ext_in : forall A B (f g : A -> list B) l, (forall x, In x l -> f x = g x) -> flat_map f l = flat_map g l.
Proof. intros A B f g l H. induction l as [|x l IH]; [reflexivity|]. simpl. rewrite H by now left. f_equal. apply IH. intros; apply H; now right. Qed.

Section C.
  Context {V : Type} (vzero : V -> bool).

  Lemma usable_ok : forall dps, exists points,
      exactly (fun p => exists t v, p = {| dp_time := Some t; dp_value := Some v |} /\ vzero v = false) dps points /\
      Forall2 (fun p vt => p = {| dp_time := Some (snd vt); dp_value := Some (fst vt) |}) points (usable vzero dps).
  Proof.
    induction dps as [|[[t|] [v|]] dps (points & I1 & I2)]; cbn [usable dp_time dp_value].
    - exists []. split; constructor.
    - destruct (vzero v) eqn:Ez.
      + exists points. split; [|exact I2]. constructor; [|exact I1]. intros (t' & v' & E & Z). inversion E; subst. congruence.
      + exists ({| dp_time := Some t; dp_value := Some v |} :: points). split; constructor; auto. now exists t, v.
    - exists points. split; [|exact I2]. constructor; [|exact I1]. intros (t' & v' & E & Z). discriminate.
    - exists points. split; [|exact I2]. constructor; [|exact I1]. intros (t' & v' & E & Z). discriminate.
    - exists points. split; [|exact I2]. constructor; [|exact I1]. intros (t' & v' & E & Z). discriminate.
  Qed.
  Lemma dim_ok : forall dims k, dimension dims k (dim dims k).
  Proof. intros dims k. unfold dimension, dim. destruct (mget dims k); auto. Qed.
  Lemma dimension_fun : forall dims k a b, dimension dims k a -> dimension dims k b -> a = b.
  Proof. intros dims k a b [A|[A ->]] [B|[B ->]]; congruence. Qed.
  Lemma load_of_fun : forall db sk tk (m : @metric V) a b, load_of vzero db sk tk m a -> load_of vzero db sk tk m b -> a = b.
  Proof.
    intros db sk tk m [a1 a2 a3 a4] [b1 b2 b3 b4] (d & p & M & A1 & A2 & A3 & A4 & A5) (d' & p' & M' & B1 & B2 & B3 & B4 & B5).
    unfold sql_metric in *. rewrite M in M'. inversion M'; subst d'. cbn in *. subst a1 b1.
    rewrite (dimension_fun _ _ _ _ A2 B2), (dimension_fun _ _ _ _ A3 B3).
    rewrite (exactly_fun _ _ _ A4 _ B4) in A5. f_equal. clear - A5 B5. revert b4 B5.
    induction A5 as [|q vt ps vts E _ IH]; intros b4 B5; inversion B5 as [|q' [v' t'] ps' vts' E' F']; subst; [reflexivity|].
    destruct vt as [v t]. cbn in *. inversion E'; subst. f_equal. now apply IH.
  Qed.

  Lemma convert_total : forall db ms sk tk, (forall m, In m ms -> m_key m <> None) ->
      exists l kept, convert_metrics vzero db ms sk tk = Ok l /\
        exactly (fun m => exists dims, sql_metric m dims) ms kept /\ Forall2 (load_of vzero db sk tk) kept l.
  Proof.
    intros db ms sk tk. induction ms as [|m ms IH]; intros H; cbn [convert_metrics].
    - exists [], []. split; [reflexivity|]. split; constructor.
    - destruct IH as (l & kept & E & X & F); [intros; apply H; now right|].
      destruct (m_key m) as [[nm ds]|] eqn:Ek; [|exfalso; apply (H m (or_introl eq_refl)); exact Ek].
      rewrite E. cbn [obind mk_metric mk_dims].
      assert (skip : ~ (exists dims, sql_metric m dims) -> exists l0 kept0, Ok l = Ok l0 /\
          exactly (fun m => exists dims, sql_metric m dims) (m :: ms) kept0 /\ Forall2 (load_of vzero db sk tk) kept0 l0).
      { intros N. exists l, kept. split; [reflexivity|]. split; [|exact F]. now constructor. }
      destruct nm as [nm|]; [|apply skip; intros (d & M); unfold sql_metric in M; congruence].
      destruct (seqb_spec nm (lit "db.load.avg")) as [->|Nn]; [|apply skip; intros (d & M); unfold sql_metric in M; congruence].
      destruct ds as [ds|]; [|apply skip; intros (d & M); unfold sql_metric in M; congruence].
      eexists _, (m :: kept). split; [reflexivity|]. split; [constructor; [exists ds; exact Ek|exact X]|].
      constructor; [|exact F]. destruct (usable_ok (m_points m)) as (points & U1 & U2).
      exists ds, points. split; [exact Ek|]. split; [reflexivity|]. split; [apply dim_ok|]. split; [apply dim_ok|]. now split.
  Qed.
  Lemma convert_panics : forall db ms sk tk m, In m ms -> m_key m = None -> convert_metrics vzero db ms sk tk = Panic.
  Proof.
    intros db ms sk tk m Hi Hk. induction ms as [|m' ms IH]; [destruct Hi|]. cbn [convert_metrics].
    destruct Hi as [->|Hi]; [now rewrite Hk|]. destruct (m_key m'); [|reflexivity]. now rewrite IH.
  Qed.
  Lemma no_missing_dec : forall ms : list (@metric V), (forall m, In m ms -> m_key m <> None) \/ (exists m, In m ms /\ m_key m = None).
  Proof.
    induction ms as [|m ms [IH|(m' & H1 & H2)]].
    - left. intros m [].
    - destruct (m_key m) eqn:E.
      + left. intros m' [<-|H]; [congruence|now apply IH].
      + right. exists m. split; [now left|exact E].
    - right. exists m'. split; [now right|exact H2].
  Qed.
  Lemma convert_iff : forall db ms sk tk l, convert_metrics vzero db ms sk tk = Ok l <->
      (forall m, In m ms -> m_key m <> None) /\
      exists kept, exactly (fun m => exists dims, sql_metric m dims) ms kept /\ Forall2 (load_of vzero db sk tk) kept l.
  Proof.
    intros db ms sk tk l. split.
    - intros E. destruct (no_missing_dec ms) as [H|(m & H1 & H2)].
      + split; [exact H|]. destruct (convert_total db ms sk tk H) as (l' & kept & E' & X & F). rewrite E in E'. inversion E'; subst.
        now exists kept.
      + rewrite (convert_panics db ms sk tk m H1 H2) in E. discriminate.
    - intros (H & kept & X & F). destruct (convert_total db ms sk tk H) as (l' & kept' & E' & X' & F'). rewrite E'. f_equal.
      rewrite (exactly_fun _ _ _ X' _ X) in F'. clear - F F'. revert l' F'.
      induction F as [|m a kept l Fm _ IH]; intros l' F'; inversion F'; subst; [reflexivity|].
      f_equal; [eapply load_of_fun; eassumption|now apply IH].
  Qed.

  Lemma asks_iff : forall db start group i r,
      asks db start group i r <-> r = half_day_request db (tadd start (Z.of_nat i * (12 * hour))) group.
  Proof.
    intros db start group i [r1 r2 r3 r4 r5 r6 r7]. unfold asks, half_day_request, half_day, tadd. cbn. split.
    - intros (-> & -> & -> & -> & -> & E). inversion E; subst. unfold hour. f_equal. f_equal. lia.
    - intros E. inversion E; subst. unfold hour. do 5 (split; [reflexivity|]). f_equal. f_equal. lia.
  Qed.
  Definition got (cli : @pi_client V) (n : nat) db start group sk tk i avgs : Prop :=
    (do out <- get_half_day cli n db (tadd start (Z.of_nat i * (12 * hour))) group; convert_metrics vzero db out sk tk) = Ok avgs.
  Lemma answered_iff : forall cli n db start group sk tk i avgs,
      answered vzero cli n db start group sk tk i avgs <-> got cli n db start group sk tk i avgs.
  Proof.
    intros cli n db start group sk tk i avgs. unfold got, answered, get_half_day. split.
    - intros (r & out & kept & Ha & Hc & HK & X & F). apply asks_iff in Ha. subst r. rewrite Hc. cbn [obind].
      apply convert_iff. split; [exact HK|]. now exists kept.
    - destruct (cli n (half_day_request db (tadd start (Z.of_nat i * (12 * hour))) group)) as [out| |] eqn:Ec; cbn [obind]; try discriminate.
      intros E. apply convert_iff in E. destruct E as (HK & kept & X & F).
      exists (half_day_request db (tadd start (Z.of_nat i * (12 * hour))) group), out, kept.
      split; [now apply asks_iff|]. split; [exact Ec|]. split; [exact HK|]. now split.
  Qed.

  (** k windows from window [i0] on *)
  Lemma windows_iff : forall k cli n db start i0 avgs tavgs,
      dig_windows vzero k cli n db (tadd start (Z.of_nat i0 * (12 * hour))) = Ok (avgs, tavgs) <->
      exists A T : nat -> list (@load_avg V),
        (forall i, i < k ->
           got cli (n + 2 * i) db start (lit "db.sql") (lit "db.sql.statement") (lit "db.sql.tokenized_id") (i0 + i) (A (i0 + i)) /\
           got cli (n + 2 * i + 1) db start (lit "db.sql_tokenized") (lit "db.sql_tokenized.statement") (lit "db.sql_tokenized.id") (i0 + i) (T (i0 + i))) /\
        avgs = flat_map A (seq i0 k) /\ tavgs = flat_map T (seq i0 k).
  Proof.
    induction k as [|k IH]; intros cli n db start i0 avgs tavgs; cbn [dig_windows seq flat_map].
    - split.
      + intros E. inversion E; subst. exists (fun _ => []), (fun _ => []). split; [intros; lia|]. now split.
      + intros (A & T & _ & -> & ->). reflexivity.
    - assert (Et : tadd (tadd start (Z.of_nat i0 * (12 * hour))) (12 * hour) = tadd start (Z.of_nat (S i0) * (12 * hour))).
      { unfold tadd. cbn [t_ns t_loc]. f_equal. lia. }
      rewrite Et. clear Et. specialize (IH cli (S (S n)) db start (S i0)).
      unfold get_half_day_sql, get_half_day_tok.
      destruct (do out <- get_half_day cli n db (tadd start (Z.of_nat i0 * (12 * hour))) (lit "db.sql");
                convert_metrics vzero db out (lit "db.sql.statement") (lit "db.sql.tokenized_id")) as [a|msg|] eqn:E1; cbn [obind].
      2: { split; [discriminate|]. intros (A & T & H & _). destruct (H 0 ltac:(lia)) as [H1 _]. unfold got in H1.
           rewrite !Nat.add_0_r in H1. congruence. }
      2: { split; [discriminate|]. intros (A & T & H & _). destruct (H 0 ltac:(lia)) as [H1 _]. unfold got in H1.
           rewrite !Nat.add_0_r in H1. congruence. }
      destruct (do out <- get_half_day cli (S n) db (tadd start (Z.of_nat i0 * (12 * hour))) (lit "db.sql_tokenized");
                convert_metrics vzero db out (lit "db.sql_tokenized.statement") (lit "db.sql_tokenized.id")) as [t|msg|] eqn:E2; cbn [obind].
      2: { split; [discriminate|]. intros (A & T & H & _). destruct (H 0 ltac:(lia)) as [_ H1]. unfold got in H1.
           replace (n + 2 * 0 + 1) with (S n) in H1 by lia. rewrite !Nat.add_0_r in H1. congruence. }
      2: { split; [discriminate|]. intros (A & T & H & _). destruct (H 0 ltac:(lia)) as [_ H1]. unfold got in H1.
           replace (n + 2 * 0 + 1) with (S n) in H1 by lia. rewrite !Nat.add_0_r in H1. congruence. }
      split.
      + destruct (dig_windows vzero k cli (S (S n)) db (tadd start (Z.of_nat (S i0) * (12 * hour)))) as [[ra rt]| |] eqn:Er; cbn [obind fst snd]; try discriminate.
        intros E. inversion E; subst. destruct (proj1 (IH ra rt) eq_refl) as (A & T & H & Ea & Etk).
        exists (fun i => if Nat.eqb i i0 then a else A i), (fun i => if Nat.eqb i i0 then t else T i). split.
        * intros [|i] Hi.
          -- rewrite !Nat.add_0_r, Nat.eqb_refl. split; [exact E1|]. replace (n + 1) with (S n) by lia. exact E2.
          -- replace (i0 + S i =? i0) with false by (symmetry; apply Nat.eqb_neq; lia).
             destruct (H i ltac:(lia)) as [H1 H2]. replace (i0 + S i) with (S i0 + i) by lia.
             replace (n + 2 * S i) with (S (S n) + 2 * i) by lia. now split.
        * rewrite Nat.eqb_refl. split; f_equal; rewrite ?Ea, ?Etk; apply flat_map_ext_in; intros x Hx; apply in_seq in Hx;
            replace (x =? i0) with false by (symmetry; apply Nat.eqb_neq; lia); reflexivity.
      + intros (A & T & H & -> & ->).
        destruct (H 0 ltac:(lia)) as [H1 H2]. unfold got in H1, H2. replace (n + 2 * 0 + 1) with (S n) in H2 by lia.
        replace (n + 2 * 0) with n in H1 by lia. replace (i0 + 0) with i0 in H1, H2 by lia. rewrite E1 in H1. rewrite E2 in H2. inversion H1; inversion H2; subst.
        rewrite (proj2 (IH (flat_map A (seq (S i0) k)) (flat_map T (seq (S i0) k)))); [reflexivity|].
        exists A, T. split; [|now split]. intros i Hi. destruct (H (S i) ltac:(lia)) as [H3 H4].
        replace (i0 + S i) with (S i0 + i) in H3, H4 by lia. replace (n + 2 * S i) with (S (S n) + 2 * i) in H3, H4 by lia. now split.
  Qed.

  Lemma dbs_iff : forall dbs cli n start avgs tavgs,
      dig_dbs vzero cli n dbs start = Ok (avgs, tavgs) <->
      exists A T : nat -> nat -> list (@load_avg V),
        (forall d db i, nth_error dbs d = Some db -> i < 14 ->
           got cli (n + 28 * d + 2 * i) db start (lit "db.sql") (lit "db.sql.statement") (lit "db.sql.tokenized_id") i (A d i) /\
           got cli (n + 28 * d + 2 * i + 1) db start (lit "db.sql_tokenized") (lit "db.sql_tokenized.statement") (lit "db.sql_tokenized.id") i (T d i)) /\
        avgs = flat_map (fun d => flat_map (A d) (seq 0 14)) (seq 0 (length dbs)) /\
        tavgs = flat_map (fun d => flat_map (T d) (seq 0 14)) (seq 0 (length dbs)).
  Proof.
    induction dbs as [|db dbs IH]; intros cli n start avgs tavgs; cbn [dig_dbs length].
    - cbn [seq flat_map]. split.
      + intros E. inversion E; subst. exists (fun _ _ => []), (fun _ _ => []). split; [intros [|d] db' i Hd; discriminate|]. now split.
      + intros (A & T & _ & -> & ->). reflexivity.
    - assert (E0 : start = tadd start (Z.of_nat 0 * (12 * hour))). { destruct start as [s l]. unfold tadd. cbn. f_equal. lia. }
      cbn [seq flat_map]. rewrite <- !seq_shift.
      assert (FM : forall (f : nat -> list (@load_avg V)) l, flat_map f (map S l) = flat_map (fun d => f (S d)) l).
      { intros f l. induction l; simpl; congruence. }
      split.
      + destruct (dig_windows vzero 14 cli n db start) as [[a t]| |] eqn:Ew; cbn [obind]; try discriminate.
        destruct (dig_dbs vzero cli (n + 28) dbs start) as [[ra rt]| |] eqn:Er; cbn [obind fst snd]; try discriminate.
        intros E. inversion E; subst. rewrite E0 in Ew. apply windows_iff in Ew. destruct Ew as (A0 & T0 & H0 & -> & ->).
        apply IH in Er. destruct Er as (A & T & H & -> & ->).
        exists (fun d => match d with 0 => A0 | S d' => A d' end), (fun d => match d with 0 => T0 | S d' => T d' end).
        split; [|rewrite !FM; split; reflexivity].
        intros [|d] db' i Hd Hi.
        * inversion Hd; subst db'. destruct (H0 i Hi) as [H1 H2]. rewrite Nat.mul_0_r, Nat.add_0_r. now split.
        * destruct (H d db' i Hd Hi) as [H1 H2]. replace (n + 28 * S d) with (n + 28 + 28 * d) by lia. now split.
      + intros (A & T & H & -> & ->). rewrite !FM.
        assert (W : dig_windows vzero 14 cli n db start = Ok (flat_map (A 0) (seq 0 14), flat_map (T 0) (seq 0 14))).
        { rewrite E0. apply windows_iff. exists (A 0), (T 0). split; [|now split]. intros i Hi. destruct (H 0 db i eq_refl Hi) as [H1 H2].
          rewrite Nat.mul_0_r, Nat.add_0_r in H1, H2. now split. }
        rewrite W. cbn [obind].
        rewrite (proj2 (IH cli (n + 28) start (flat_map (fun d => flat_map (A (S d)) (seq 0 14)) (seq 0 (length dbs)))
                           (flat_map (fun d => flat_map (T (S d)) (seq 0 14)) (seq 0 (length dbs))))); [reflexivity|].
        exists (fun d => A (S d)), (fun d => T (S d)). split; [|now split]. intros d db' i Hd Hi.
        destruct (H (S d) db' i Hd Hi) as [H1 H2]. replace (n + 28 * S d) with (n + 28 + 28 * d) in H1, H2 by lia. now split.
  Qed.

  Lemma fetched_iff : forall dbs cli start avgs tavgs,
      dig_dbs vzero cli 0 dbs start = Ok (avgs, tavgs) <-> week_fetched vzero cli dbs start avgs tavgs.
  Proof.
    intros dbs cli start avgs tavgs. rewrite dbs_iff. unfold week_fetched.
    split; intros (A & T & H & E); exists A, T; (split; [|exact E]); intros d db i Hd Hi;
      destruct (H d db i Hd Hi) as [H1 H2]; split; apply answered_iff; assumption.
  Qed.
End C.
