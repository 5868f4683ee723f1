(** Proofs about consumed times, counts and picks. *)
From Coq Require Import String List NArith ZArith Bool Lia Arith Permutation.
From Verif Require Import Base IndexBuild ExplainTree ExplainSpec ExplainTreeProofs LimitedHeap LimitedHeapSpec LimitedHeapProofs
  Lib LibProperties Otel OtelSpec OtelProofs.
Import ListNotations.
Local Open Scope Z_scope.

Lemma u64_add_l : forall a b, u64 (u64 a + b) = u64 (a + b).
Proof. intros. unfold u64. apply Z.add_mod_idemp_l. lia. Qed.
Lemma u64_add_r : forall a b, u64 (a + u64 b) = u64 (a + b).
Proof. intros. unfold u64. apply Z.add_mod_idemp_r. lia. Qed.
Lemma u64_small : forall a, 0 <= a < 2 ^ 64 -> u64 a = a.
Proof. intros. unfold u64. now apply Z.mod_small. Qed.

(** the integers from [lo] on *)
Fixpoint zrange (lo : Z) (n : nat) : list Z := match n with O => [] | S n' => lo :: zrange (lo + 1) n' end.
Lemma zrange_In : forall n lo x, In x (zrange lo n) <-> lo <= x < lo + Z.of_nat n.
Proof.
  induction n as [|n IH]; intros lo x; cbn [zrange In]; [lia|]. rewrite IH. lia.
Qed.
Lemma zrange_NoDup : forall n lo, NoDup (zrange lo n).
Proof. induction n as [|n IH]; intros lo; cbn [zrange]; constructor; auto. rewrite zrange_In. lia. Qed.
Lemma zrange_length : forall n lo, length (zrange lo n) = n.
Proof. induction n; intros; simpl; auto. Qed.

Lemma NoDup_app_Z : forall (a b : list Z), NoDup a -> NoDup b -> (forall x, In x a -> ~ In x b) -> NoDup (a ++ b).
Proof.
  induction a as [|x a IH]; simpl; intros b Ha Hb H; [exact Hb|]. inversion Ha as [|? ? N1 N2]; subst. constructor.
  - intros K. apply in_app_iff in K. destruct K as [K|K]; [tauto|]. exact (H x (or_introl eq_refl) K).
  - apply IH; [exact N2|exact Hb|]. intros y Hy. apply H. now right.
Qed.

Lemma latest_app : forall a b s, latest s (a ++ b) = latest (latest s b) a.
Proof. intros. unfold latest. apply fold_right_app. Qed.
Lemma latest_ge : forall ivs s, s <= latest s ivs /\ Forall (fun iv => snd iv <= latest s ivs) ivs.
Proof.
  induction ivs as [|iv ivs IH]; intros s; cbn [latest fold_right]; [split; [lia|constructor]|].
  fold (latest s ivs). destruct (IH s) as [I1 I2]. split; [lia|]. constructor; [lia|].
  eapply Forall_impl; [|exact I2]. intros; simpl in *. lia.
Qed.
Lemma latest_le : forall ivs s m, s <= m -> Forall (fun iv => snd iv <= m) ivs -> latest s ivs <= m.
Proof.
  induction ivs as [|iv ivs IH]; intros s m H F; cbn [latest fold_right]; [auto|]. inversion F; subst.
  fold (latest s ivs). specialize (IH s m H H3). lia.
Qed.
Lemma latest_max : forall ivs s x, latest (Z.max s x) ivs = Z.max (latest s ivs) x.
Proof.
  induction ivs as [|iv ivs IH]; intros s x; cbn [latest fold_right]; [lia|].
  fold (latest s ivs). fold (latest (Z.max s x) ivs). rewrite IH. lia.
Qed.
Lemma latest_perm : forall a b s, Permutation a b -> latest s a = latest s b.
Proof.
  intros a b s H. induction H; cbn [latest fold_right]; try reflexivity; fold (latest s l) in *; try fold (latest s l') in *; lia.
Qed.

Lemma consumed_loop_spec : forall todo seen s consumed last l x,
    Forall forwards todo -> sorted_by times_less todo ->
    Forall (fun iv => x <= fst iv) todo -> (forall y, In y l -> y < x) ->
    last = latest s seen -> uncovered seen s last l -> consumed = u64 (Z.of_nat (length l)) ->
    exists l', uncovered (seen ++ todo) s (latest s (seen ++ todo)) l' /\
      consumed_loop todo consumed last = (u64 (Z.of_nat (length l')), latest s (seen ++ todo)).
Proof.
  induction todo as [|[a b] todo IH]; intros seen s consumed last l x HF HS HX HL Hlast HU HC; cbn [consumed_loop].
  - exists l. rewrite app_nil_r. subst. auto.
  - inversion HF as [|? ? F1 F2]; subst. unfold forwards in F1. simpl in F1.
    inversion HX as [|? ? X1 X2]; subst. simpl in X1.
    assert (HS2 : sorted_by times_less todo /\ Forall (fun iv => a <= fst iv) todo).
    { inversion HS as [|? ? S1 S2]; subst. split; auto. eapply Forall_impl; [|exact S1].
      intros iv Hiv. unfold times_less in Hiv. simpl in Hiv. apply Z.ltb_ge in Hiv. exact Hiv. }
    destruct HS2 as [HS2 HA].
    set (last := latest s seen) in *.
    assert (Hls : s <= last) by apply latest_ge.
    assert (Hend : Forall (fun iv => snd iv <= last) seen) by apply latest_ge.
    replace (seen ++ (a, b) :: todo) with ((seen ++ [(a, b)]) ++ todo) by now rewrite <- app_assoc.
    assert (HNL : latest s (seen ++ [(a, b)]) = if Z.ltb last b then b else last).
    { rewrite latest_app. cbn [latest fold_right snd]. rewrite Z.max_comm, latest_max. fold last. destruct (Z.ltb_spec last b); lia. }
    destruct HU as [U1 U2].
    rewrite Forall_forall in Hend.
    destruct (Z.ltb_spec last a) as [Hlt|Hge].
    + assert (Hb : (if Z.ltb last b then b else last) = b) by (destruct (Z.ltb_spec last b); lia).
      apply (IH (seen ++ [(a, b)]) s _ _ (l ++ zrange last (Z.to_nat (a - last))) a); auto.
      * intros y Hy. apply in_app_iff in Hy. destruct Hy as [Hy|Hy]; [specialize (HL y Hy); lia|].
        apply zrange_In in Hy. lia.
      * rewrite <- HNL. split.
        -- apply NoDup_app_Z; auto using zrange_NoDup. intros y Hy K. apply U2 in Hy. apply zrange_In in K. lia.
        -- intros y. rewrite HNL, Hb. rewrite in_app_iff, U2, zrange_In. rewrite Forall_app. unfold covers. split.
           ++ intros [[K1 K2]|K].
              ** split; [lia|]. split; auto. constructor; [simpl; lia|constructor].
              ** split; [lia|]. split; [|constructor; [simpl; lia|constructor]].
                 apply Forall_forall. intros iv Hiv. specialize (Hend iv Hiv). lia.
           ++ intros [K1 [K2 K3]]. inversion K3 as [|? ? K4 _]; subst. simpl in K4.
              destruct (Z.lt_ge_cases y last); [left; split; [lia|exact K2]|right; lia].
      * rewrite u64_add_r, u64_add_l, app_length, zrange_length. f_equal. lia.
    + apply (IH (seen ++ [(a, b)]) s _ _ l a); auto.
      * intros y Hy. specialize (HL y Hy). lia.
      * rewrite <- HNL. split; auto. intros y. rewrite HNL, U2, Forall_app. unfold covers. split.
        -- intros [K1 K2]. split; [destruct (Z.ltb_spec last b); lia|]. split; auto. constructor; [|constructor].
           simpl. assert (In y l) by (apply U2; auto). specialize (HL y H). lia.
        -- intros [K1 [K2 K3]]. inversion K3 as [|? ? K4 _]; subst. simpl in K4. split; [|exact K2].
           destruct (Z.ltb_spec last b); lia.
Qed.

Lemma uncovered_perm : forall a b lo hi l, Permutation a b -> uncovered a lo hi l -> uncovered b lo hi l.
Proof.
  intros a b lo hi l HP [H1 H2]. split; auto. intros x. rewrite H2. split; intros [K1 K2]; split; auto.
  - eapply Permutation_Forall; eauto.
  - eapply Permutation_Forall; [apply Permutation_sym|]; eauto.
Qed.

Lemma consumed_time_spec : forall srt t, is_sort times_less srt -> Forall forwards (child_times t) ->
    let s := s_start (span_at t) in let m := latest s (child_times t) in
    exists l, uncovered (child_times t) s m l /\
      consumed_time srt t = ((Z.of_nat (length l) + (s_end (span_at t) - m)) mod 2 ^ 64)%Z.
Proof.
  intros srt t Hsrt HF s m. unfold consumed_time. cbv zeta.
  fold (span_at t).
  change (map (fun c : tree node => (s_start (n_span (t_val c)), s_end (n_span (t_val c)))) (t_children t)) with (child_times t).
  destruct (Hsrt (child_times t)) as [SP SS].
  assert (F' : Forall forwards (srt (child_times t))) by (eapply Permutation_Forall; [apply Permutation_sym, SP|exact HF]).
  destruct (srt (child_times t)) as [|iv0 rest] eqn:ES.
  - apply Permutation_nil in SP. exists []. cbn [consumed_loop]. unfold m. rewrite SP. cbn [latest fold_right]. split.
    + split; [constructor|]. intros x. simpl. fold s. split; [tauto|]. intros [K _]. lia.
    + rewrite u64_add_r. reflexivity.
  - rewrite <- ES in *.
    destruct (consumed_loop_spec (srt (child_times t)) [] s 0 s [] (fst iv0)) as (l & HU & HE); auto.
    + rewrite ES in *. constructor; [lia|]. inversion SS as [|? ? S1 S2]; subst.
      eapply Forall_impl; [|exact S1]. intros iv Hiv. unfold times_less in Hiv. now apply Z.ltb_ge in Hiv.
    + simpl. tauto.
    + split; [constructor|]. intros x. cbn [latest fold_right]. simpl. split; [tauto|lia].
    + cbn [app] in HU, HE. fold s. rewrite HE. exists l. unfold m. rewrite (latest_perm _ _ s SP) in *.
      split; [eapply uncovered_perm; eauto|]. rewrite u64_add_r, u64_add_l. reflexivity.
Qed.

Lemma uncovered_length : forall ivs lo hi l, lo <= hi -> uncovered ivs lo hi l -> Z.of_nat (length l) <= hi - lo.
Proof.
  intros ivs lo hi l H [N I]. assert (K : incl l (zrange lo (Z.to_nat (hi - lo)))).
  { intros x Hx. apply I in Hx. apply zrange_In. lia. }
  pose proof (NoDup_incl_length N K) as L. rewrite zrange_length in L. lia.
Qed.
Lemma uncovered_unique : forall ivs lo hi a b, uncovered ivs lo hi a -> uncovered ivs lo hi b -> length a = length b.
Proof.
  intros ivs lo hi a b [A1 A2] [B1 B2]. apply Nat.le_antisymm; apply NoDup_incl_length; auto; intros x Hx.
  - now apply B2, A2.
  - now apply A2, B2.
Qed.

(** children within the span *)
Lemma consumed_within : forall srt t, is_sort times_less srt -> Forall forwards (child_times t) ->
    Forall (fun iv => snd iv <= s_end (span_at t)) (child_times t) ->
    0 <= s_start (span_at t) <= s_end (span_at t) -> s_end (span_at t) < 2 ^ 64 ->
    exists l, uncovered (child_times t) (s_start (span_at t)) (s_end (span_at t)) l /\ consumed_time srt t = Z.of_nat (length l).
Proof.
  intros srt t Hsrt HF HE Hs He. destruct (consumed_time_spec srt t Hsrt HF) as (l & HU & EC). cbv zeta in HU, EC.
  set (s := s_start (span_at t)) in *. set (e := s_end (span_at t)) in *. set (m := latest s (child_times t)) in *.
  assert (Hm : m <= e) by (apply latest_le; auto; lia).
  assert (Hsm : s <= m) by apply latest_ge.
  assert (Hend : Forall (fun iv => snd iv <= m) (child_times t)) by apply latest_ge.
  assert (HU' : uncovered (child_times t) s e (l ++ zrange m (Z.to_nat (e - m)))).
  { destruct HU as [U1 U2]. split.
    - apply NoDup_app_Z; auto using zrange_NoDup. intros y Hy K. apply U2 in Hy. apply zrange_In in K. lia.
    - intros y. rewrite in_app_iff, U2, zrange_In. split.
      + intros [[K1 K2]|K]; [split; [lia|auto]|]. split; [lia|]. rewrite Forall_forall in *. intros iv Hiv.
        specialize (Hend iv Hiv). unfold covers. lia.
      + intros [K1 K2]. destruct (Z.lt_ge_cases y m); [left; split; [lia|auto]|right; lia]. }
  eexists. split; [exact HU'|]. rewrite EC.
  assert (HL : s <= e) by lia. apply (uncovered_length _ _ _ _ HL) in HU'. rename HU' into HL2. rewrite app_length, zrange_length in HL2.
  rewrite Z.mod_small by lia. rewrite app_length, zrange_length. lia.
Qed.

(** ** Sums and counts per service *)
Definition or_zero (o : option Z) : Z := match o with Some c => c | None => 0 end.
Definition sum_of (f : tree node -> Z) (svc : gostring) (l : list (tree node)) : Z :=
  fold_right (fun t n => (if seqb (s_service (span_at t)) svc then f t else 0) + n) 0 l.

Lemma consumed_visit_spec : forall srt l m, NoDup (keys m) ->
    NoDup (keys (consumed_visit srt l m)) /\
    forall svc, mget (consumed_visit srt l m) svc =
      if existsb (fun t => seqb (service_at t) svc) l
      then Some (u64 (or_zero (mget m svc) + sum_of (consumed_time srt) svc l)) else mget m svc.
Proof.
  intros srt l. induction l as [|t l IH]; intros m HN; cbn [consumed_visit fold_left existsb].
  - auto.
  - unfold consumed_visit in IH.
    destruct (IH (mset m (service_at t) (u64 (or_zero (mget m (service_at t)) + consumed_time srt t)))
                (keys_mset_NoDup _ _ _ HN)) as [I1 I2].
    split; [exact I1|]. intros svc. unfold or_zero in I2 at 2. rewrite I2. cbn [sum_of fold_right].
    fold (sum_of (consumed_time srt) svc l). change (s_service (span_at t)) with (service_at t).
    rewrite mget_mset. rewrite (seqb_sym svc (service_at t)). destruct (seqb_spec (service_at t) svc) as [<-|N]; cbn [orb].
    + destruct (existsb _ l) eqn:EX.
      * cbn [or_zero]. rewrite u64_add_l. f_equal. f_equal. unfold or_zero. lia.
      * assert (E0 : sum_of (consumed_time srt) (service_at t) l = 0).
        { clear - EX. induction l as [|u l IH]; cbn [sum_of fold_right existsb] in *; auto. apply orb_false_iff in EX.
          destruct EX as [E1 E2]. change (s_service (span_at u)) with (service_at u). rewrite E1.
          fold (sum_of (consumed_time srt) (service_at t) l). now rewrite (IH E2). }
        rewrite E0, Z.add_0_r. reflexivity.
    + rewrite Z.add_0_l. reflexivity.
Qed.

Lemma existsb_service : forall svc l, existsb (fun t => seqb (service_at t) svc) l = true <-> has_service svc l.
Proof.
  intros svc l. rewrite existsb_exists. unfold has_service, service_at, span_at. split; intros (t & H1 & H2); exists t; split; auto.
  - now apply seqb_eq.
  - now apply seqb_eq.
Qed.

Lemma best_spec : forall es best, let r := fold_left (fun (best e : gostring * Z) => if Z.ltb (snd best) (snd e) then e else best) es best in
    (r = best \/ In r es /\ snd best < snd r) /\ Forall (fun e => snd e <= snd r) es /\ snd best <= snd r.
Proof.
  induction es as [|e es IH]; intros best; cbn [fold_left]; [split; [auto|split; [constructor|lia]]|].
  cbv zeta. destruct (IH (if Z.ltb (snd best) (snd e) then e else best)) as (I1 & I2 & I3). cbv zeta in I1, I2, I3.
  set (r := fold_left _ es _) in *. destruct (Z.ltb_spec (snd best) (snd e)) as [L|L].
  - split.
    + right. destruct I1 as [->|[I1 I1']]; [split; [now left|lia]|]. split; [now right|lia].
    + split; [constructor; auto|lia].
  - split.
    + destruct I1 as [->|[I1 I1']]; [now left|]. right. split; [now right|lia].
    + split; [constructor; auto; lia|lia].
Qed.

Lemma u64_range : forall x, 0 <= u64 x < 2 ^ 64.
Proof. intros. unfold u64. apply Z.mod_pos_bound. lia. Qed.

Lemma consumed_entries : forall srt t svc v, In (svc, v) (consumed_visit srt (spans_of t) []) <->
    has_service svc (spans_of t) /\ v = service_total (consumed_time srt) svc (spans_of t).
Proof.
  intros srt t svc v. destruct (consumed_visit_spec srt (spans_of t) [] ltac:(constructor)) as [C1 C2].
  specialize (C2 svc). cbn [mget or_zero] in C2. rewrite Z.add_0_l in C2.
  pose proof (existsb_service svc (spans_of t)) as HE. split.
  - intros H. apply (In_mget _ _ _ C1) in H. rewrite C2 in H. destruct (existsb _ _); [|discriminate].
    injection H as <-. split; [now apply HE|reflexivity].
  - intros [H ->]. apply mget_In. rewrite C2. apply HE in H. rewrite H. reflexivity.
Qed.

Lemma time_consuming_spec : forall srt ord t, any_order ord ->
    let r := time_consuming_service srt ord t in let T := fun svc => service_total (consumed_time srt) svc (spans_of t) in
    (r = [] /\ forall svc, has_service svc (spans_of t) -> T svc = 0) \/
    (has_service r (spans_of t) /\ 0 < T r /\ forall svc, has_service svc (spans_of t) -> T svc <= T r).
Proof.
  intros srt ord t Hord r T. unfold r, time_consuming_service, most_consumed.
  pose proof (Hord (consumed_visit srt (spans_of t) [])) as HP.
  destruct (best_spec (ord (consumed_visit srt (spans_of t) [])) ([], 0)) as (B1 & B2 & B3). cbv zeta in B1, B2, B3.
  set (b := fold_left _ _ _) in *. rewrite Forall_forall in B2. cbn [snd] in *.
  assert (ALL : forall svc, has_service svc (spans_of t) -> T svc <= snd b).
  { intros svc H. apply (B2 (svc, T svc)). eapply Permutation_in; [apply Permutation_sym, HP|]. apply consumed_entries. auto. }
  destruct B1 as [->|[B1 B1']].
  - left. split; [reflexivity|]. intros svc H. specialize (ALL svc H). cbn [snd] in ALL.
    pose proof (u64_range (sum_of (consumed_time srt) svc (spans_of t))) as R. unfold T, service_total. unfold u64, sum_of in R.
    unfold T, service_total in ALL. lia.
  - right. destruct b as [svc v]. cbn [fst snd] in *. eapply Permutation_in in B1; [|exact HP]. apply consumed_entries in B1.
    destruct B1 as [B1 ->]. auto.
Qed.

(** the entries of a service first *)
Definition first_entries (svc : gostring) (l : list (gostring * Z)) : list (gostring * Z) :=
  filter (fun e => seqb (fst e) svc) l ++ filter (fun e => negb (seqb (fst e) svc)) l.
Lemma first_entries_order : forall svc, any_order (first_entries svc).
Proof.
  intros svc l. unfold first_entries. induction l as [|e l IH]; simpl; auto.
  destruct (seqb (fst e) svc); simpl; [now constructor|]. apply Permutation_sym, Permutation_cons_app, Permutation_sym, IH.
Qed.
Lemma time_consuming_tie : forall srt t svc, has_service svc (spans_of t) ->
    let T := fun s => service_total (consumed_time srt) s (spans_of t) in
    0 < T svc -> (forall s, has_service s (spans_of t) -> T s <= T svc) ->
    time_consuming_service srt (first_entries svc) t = svc.
Proof.
  intros srt t svc H T Hpos Hmax. unfold time_consuming_service, most_consumed.
  destruct (consumed_visit_spec srt (spans_of t) [] ltac:(constructor)) as [C1 _].
  set (m := consumed_visit srt (spans_of t) []) in *.
  assert (HI : In (svc, T svc) m) by (apply consumed_entries; auto).
  assert (HV : forall e, In e m -> snd e <= T svc).
  { intros [s v] He. apply consumed_entries in He. destruct He as [He ->]. now apply Hmax. }
  unfold first_entries.
  assert (HF : exists r, filter (fun e => seqb (fst e) svc) m = (svc, T svc) :: r).
  { clear HV. clearbody m. clear - HI C1. induction m as [|[k v] m IH]; [elim HI|]. simpl. inversion C1 as [|? ? N1 N2]; subst.
    destruct HI as [E|HI].
    - injection E as -> ->. rewrite seqb_refl. eauto.
    - destruct (seqb_spec k svc) as [->|N]; auto. elim N1. apply in_map_iff. exists (svc, T svc). auto. }
  destruct HF as (r & HF). rewrite HF. cbn [app fold_left snd].
  destruct (Z.ltb_spec 0 (T svc)); [|lia].
  assert (HR : forall l, (forall e, In e l -> snd e <= T svc) ->
     fold_left (fun best e : gostring * Z => if Z.ltb (snd best) (snd e) then e else best) l (svc, T svc) = (svc, T svc)).
  { induction l as [|e l IH]; intros Hl; cbn [fold_left snd]; auto.
    specialize (Hl e (or_introl eq_refl)) as He. destruct (Z.ltb_spec (T svc) (snd e)); [lia|]. apply IH. intros; apply Hl. now right. }
  rewrite HR; [reflexivity|]. intros e He. apply in_app_iff in He. apply HV. destruct He as [He|He].
  - assert (K : In e (filter (fun e => seqb (fst e) svc) m)) by (rewrite HF; now right). apply filter_In in K. tauto.
  - apply filter_In in He. tauto.
Qed.

(** ** Counts *)
Lemma spans_of_preorder : forall t, map t_val (spans_of t) = preorder t.
Proof.
  apply tree_ind'. intros n cs IH. cbn [spans_of preorder map t_val]. f_equal.
  induction IH as [|c cs Hc Hcs IHl]; simpl; auto. now rewrite map_app, Hc, IHl.
Qed.
Definition count_in (svc : gostring) (l : list (tree node)) : Z :=
  Z.of_nat (length (filter (fun t => seqb (service_at t) svc) l)).
Lemma count_in_accesses : forall svc t, count_in svc (spans_of t) = accesses svc t.
Proof.
  intros svc t. unfold count_in, accesses. rewrite <- spans_of_preorder. f_equal.
  induction (spans_of t) as [|u l IH]; simpl; auto. unfold service_at at 1. destruct (seqb _ svc); simpl; congruence.
Qed.
Lemma count_visit_spec : forall l m, NoDup (keys m) ->
    NoDup (keys (count_visit l m)) /\
    forall svc, mget (count_visit l m) svc =
      if existsb (fun t => seqb (service_at t) svc) l then Some (or_zero (mget m svc) + count_in svc l) else mget m svc.
Proof.
  intros l. induction l as [|t l IH]; intros m HN; cbn [count_visit fold_left existsb]; auto.
  unfold count_visit in IH.
  destruct (IH (mset m (service_at t) (or_zero (mget m (service_at t)) + 1)) (keys_mset_NoDup _ _ _ HN)) as [I1 I2].
  split; [exact I1|]. intros svc. unfold or_zero in I2 at 2. rewrite I2. unfold count_in. cbn [filter].
  rewrite mget_mset. rewrite (seqb_sym svc (service_at t)). destruct (seqb_spec (service_at t) svc) as [<-|N]; cbn [orb length].
  - destruct (existsb _ l) eqn:EX.
    + cbn [or_zero]. unfold count_in. f_equal. unfold or_zero. lia.
    + f_equal. assert (E0 : filter (fun u => seqb (service_at u) (service_at t)) l = []).
      { clear - EX. induction l as [|u l IH]; cbn [filter existsb] in *; auto. apply orb_false_iff in EX.
        destruct EX as [E1 E2]. rewrite E1. auto. }
      rewrite E0. simpl. unfold or_zero. lia.
  - destruct (existsb _ l); auto.
Qed.
Lemma lo_max_spec : forall l, l <> [] -> In (lo_max l) l /\ Forall (fun x => x <= lo_max l) l.
Proof.
  intros [|x l] H; [congruence|]. clear H. unfold lo_max.
  assert (G : forall l x, let r := fold_left (fun m y => if Z.ltb m y then y else m) l x in
             (r = x \/ In r l) /\ x <= r /\ Forall (fun y => y <= r) l).
  { induction l0 as [|y l0 IH]; intros z; cbn [fold_left]; [split; [auto|split; [lia|constructor]]|].
    cbv zeta. destruct (IH (if Z.ltb z y then y else z)) as (I1 & I2 & I3). cbv zeta in *. destruct (Z.ltb_spec z y).
    - split; [right; destruct I1 as [->|I1]; [now left|now right]|]. split; [lia|constructor; auto].
    - split; [destruct I1 as [->|I1]; [now left|right; now right]|]. split; [lia|]. constructor; auto. lia. }
  destruct (G l x) as (G1 & G2 & G3). cbv zeta in *. split; [destruct G1 as [->|G1]; [now left|now right]|]. constructor; auto.
Qed.
Lemma max_same_service_spec : forall ord t, any_order ord ->
    (exists svc, accesses svc t = max_same_service ord t) /\ (forall svc, accesses svc t <= max_same_service ord t) /\
    1 <= max_same_service ord t.
Proof.
  intros ord t Hord. unfold max_same_service. set (m := count_visit (spans_of t) []).
  destruct (count_visit_spec (spans_of t) [] ltac:(constructor)) as [C1 C2]. fold m in C1, C2.
  pose proof (Hord m) as HP.
  assert (C3 : forall svc v, In (svc, v) m <-> has_service svc (spans_of t) /\ v = accesses svc t).
  { intros svc v. specialize (C2 svc). cbn [mget or_zero] in C2. rewrite Z.add_0_l, count_in_accesses in C2.
    pose proof (existsb_service svc (spans_of t)) as HE. split.
    - intros H. apply (In_mget _ _ _ C1) in H. rewrite C2 in H. destruct (existsb _ _); [|discriminate].
      injection H as <-. split; [now apply HE|reflexivity].
    - intros [H ->]. apply mget_In. rewrite C2. apply HE in H. now rewrite H. }
  assert (HS : has_service (service_at t) (spans_of t)).
  { exists t. split; [destruct t; now left|reflexivity]. }
  assert (Hin : In (service_at t, accesses (service_at t) t) m) by (apply C3; auto).
  destruct (lo_max_spec (map snd (ord m))) as [L1 L2].
  { intros E. apply map_eq_nil in E. rewrite E in HP. apply Permutation_nil in HP. rewrite HP in Hin. elim Hin. }
  rewrite Forall_forall in L2.
  assert (UP : forall svc, has_service svc (spans_of t) -> accesses svc t <= lo_max (map snd (ord m))).
  { intros svc H. apply L2. apply in_map_iff. exists (svc, accesses svc t). split; [reflexivity|].
    eapply Permutation_in; [apply Permutation_sym, HP|]. apply C3. auto. }
  assert (ONE : 1 <= accesses (service_at t) t).
  { unfold accesses. destruct t as [n cs]. cbn [preorder filter]. unfold service_at. cbn [t_val]. rewrite seqb_refl. cbn [length]. lia. }
  split; [|split].
  - apply in_map_iff in L1. destruct L1 as ([svc v] & E & L1). eapply Permutation_in in L1; [|exact HP]. apply C3 in L1.
    exists svc. destruct L1 as [_ ->]. exact E.
  - intros svc. destruct (existsb (fun u => seqb (service_at u) svc) (spans_of t)) eqn:EX.
    + apply UP. now apply existsb_service.
    + specialize (UP _ HS). rewrite <- count_in_accesses. unfold count_in.
      assert (E0 : filter (fun u => seqb (service_at u) svc) (spans_of t) = []).
      { clear - EX. induction (spans_of t) as [|u l IH]; cbn [filter existsb] in *; auto. apply orb_false_iff in EX.
        destruct EX as [E1 E2]. rewrite E1. auto. }
      rewrite E0. simpl. lia.
  - specialize (UP _ HS). lia.
Qed.

Lemma filter_sublist : forall A (P : A -> Prop) f (l : list A), (forall x, f x = true <-> P x) -> sublist_where P l (filter f l).
Proof.
  intros A P f l H. induction l as [|x l IH]; simpl; [constructor|]. destruct (f x) eqn:E.
  - constructor; auto. now apply H.
  - apply sw_skip; auto. intros K. apply H in K. congruence.
Qed.

Lemma faster_strict_weak : strict_weak faster.
Proof.
  split; intros; unfold faster in *; repeat match goal with
    | H : Z.ltb _ _ = true |- _ => apply Z.ltb_lt in H
    | H : Z.ltb _ _ = false |- _ => apply Z.ltb_ge in H
    end; apply Z.ltb_ge; lia.
Qed.
