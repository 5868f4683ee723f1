(** Sums of loads with rounded numbers. *)
From Coq Require Import String List NArith ZArith QArith Qpower Qround Qabs Bool Lia Arith Lqa Permutation.
From Verif Require Import Base ExplainTree MysqlExplain IndexBuild Pi LoadCharts LoadChartsSpec LoadChartsProofs Floats FloatsSpec FloatsProofs FloatTimes FloatLoadsSpec.
Import ListNotations.
Local Open Scope Q_scope.

Notation cnt n := (inject_Z (Z.of_nat n)).
Lemma cnt_S n : cnt (S n) == cnt n + 1.
Proof. rewrite Nat2Z.inj_succ. unfold Z.succ. rewrite inject_Z_plus. reflexivity. Qed.
Lemma cnt_le n m : (n <= m)%nat -> cnt n <= cnt m.
Proof. intros H. apply inject_le. lia. Qed.
Lemma cnt_nonneg n : 0 <= cnt n.
Proof. apply (inject_le 0). lia. Qed.
Lemma within_mono n m x y : (n <= m)%nat -> 0 <= y -> within_eps n x y -> within_eps m x y.
Proof.
  intros L Y H. unfold within_eps in *. apply Qle_trans with (1 := H). apply Qmult_le_compat_r; [|exact Y].
  apply Qmult_le_compat_r; [now apply cnt_le|]. apply Qlt_le_weak, two_pos.
Qed.

Section R.
  Context (rnd : Q -> Q) (RND : rounding rnd).
  (** few enough additions *)
  Definition few (n : nat) : Prop := (Z.of_nat n <= 2 ^ 50)%Z.
  Lemma few_eps n : few n -> cnt n * eps <= 1 # 8.
  Proof.
    intros H. apply inject_le in H. rewrite eps_val. change (inject_Z (2 ^ 50)) with (1125899906842624 # 1) in H. lra.
  Qed.
  Lemma add_step k x y v c m : few k -> 0 <= y -> 0 <= v -> y + v <= two 1010 -> is_float x -> is_float c ->
    within_eps (2 * k) x y -> within_eps m c v -> (m = 0 \/ (m = 1 /\ 1 <= k))%nat ->
    within_eps (2 * S k) (rnd (x + c)) (y + v) /\ is_float (rnd (x + c)).
  Proof.
    intros F Y V U FX FC H HC Hm. pose proof (few_eps k F) as FE. pose proof (cnt_nonneg k) as K0. unfold within_eps in *.
    assert (cnt (2 * k) == 2 * cnt k) as C2. { rewrite Nat2Z.inj_mul, inject_Z_mult. reflexivity. }
    assert (cnt (2 * S k) == 2 * cnt k + 2) as C3. { replace (Z.of_nat (2 * S k)) with (2 * Z.of_nat k + 2)%Z by lia. rewrite inject_Z_plus, inject_Z_mult. reflexivity. }
    rewrite C2 in H. rewrite C3. rewrite eps_val in *. set (t := cnt k) in *. set (e := 1 # 9007199254740992) in *.
    assert (0 <= t * e * y) as P1 by (apply Qmult_le_0_compat; [apply Qmult_le_0_compat; [exact K0|discriminate]|exact Y]).
    assert (t * e * y <= (1 # 8) * y) as P2 by (apply Qmult_le_compat_r; assumption).
    assert (0 <= t * e * v) as P3 by (apply Qmult_le_0_compat; [apply Qmult_le_0_compat; [exact K0|discriminate]|exact V]).
    setoid_replace (2 * t * e * y) with (2 * (t * e * y)) in H by ring. apply abs_bounds in H.
    assert ((c == v) \/ (- (e * v) <= c - v /\ c - v <= e * v /\ 1 <= t)) as HC'.
    { destruct Hm as [-> | [-> K]].
      - left. change (cnt 0) with 0 in HC. apply abs_bounds in HC. lra.
      - right. change (cnt 1) with 1 in HC. apply abs_bounds in HC. assert (1 <= t) by (apply (cnt_le 1 k K)). lra. }
    assert (0 < e) as EP by reflexivity.
    assert (e * v <= (1 # 8) * v) as P4 by (apply Qmult_le_compat_r; [discriminate|exact V]).
    assert (0 <= x) as X0 by lra. assert (0 <= c) as X1 by (destruct HC'; lra).
    assert (x + c <= 2 * (y + v)) as XS by (destruct HC'; lra).
    assert (two 1023 == inject_Z (2 ^ 13) * two 1010) as TT by (rewrite <- (two_Z 13) by lia; rewrite <- two_plus; reflexivity).
    change (inject_Z (2 ^ 13)) with 8192 in TT. pose proof (two_pos 1010) as TP.
    assert (moderate (x + c)) as M by (unfold moderate; rewrite Qabs_pos by lra; lra).
    assert (fine (x + c)) as FN by (apply fine_plus; now apply float_fine).
    split; [|now apply rnd_float].
    pose proof (rnd_rel rnd RND _ (or_intror FN) M) as R. rewrite (Qabs_pos (x + c)) in R by lra. rewrite eps_val in R. fold e in R. apply abs_bounds in R.
    setoid_replace ((2 * t + 2) * e * (y + v)) with (2 * (t * e * y) + 2 * (t * e * v) + 2 * (e * y) + 2 * (e * v)) by ring.
    assert (0 <= e * y) as P5 by (apply Qmult_le_0_compat; lra). assert (0 <= e * v) as P6 by (apply Qmult_le_0_compat; lra).
    destruct HC' as [HC' | (HC1 & HC2 & K1)].
    - assert (e * (x + c) <= 2 * (e * y) + e * v) as B.
      { setoid_replace (2 * (e * y) + e * v) with (e * (2 * y + v)) by ring. apply Qmult_le_l; [exact EP|]. lra. }
      apply bounds_abs; lra.
    - assert (e * (x + c) <= 2 * (e * y) + 2 * (e * v)) as B.
      { setoid_replace (2 * (e * y) + 2 * (e * v)) with (e * (2 * y + 2 * v)) by ring. apply Qmult_le_l; [exact EP|]. lra. }
      assert (1 * (e * v) <= t * (e * v)) as B2 by (apply Qmult_le_compat_r; assumption).
      assert (t * (e * v) == t * e * v) as B3 by ring.
      apply bounds_abs; lra.
  Qed.

  (** ** The rows *)
  Lemma upsert_sim {E} (R R2 : E -> E -> Prop) is new new' upd upd' l l' : Forall2 R l l' ->
    (forall e e', R e e' -> is e = is e') -> (forall e e', R e e' -> R2 (upd e) (upd' e')) -> (forall e e', R e e' -> R2 e e') -> R2 new new' ->
    Forall2 R2 (upsert is new upd l) (upsert is new' upd' l').
  Proof.
    intros H HI HU HW HN. induction H as [|e e' l l' H1 H2 IH]; cbn [upsert]; [now constructor; [|constructor]|].
    rewrite (HI _ _ H1). destruct (is e'); constructor; auto. clear -H2 HW. induction H2; constructor; auto.
  Qed.
  Definition load_rel (k : nat) (T : Q) (l l' : load) : Prop := near_load (2 * k) l l' /\ sl_sum l' <= T.
  Definition db_rel k T (d d' : @db_load Q) : Prop := dl_name d = dl_name d' /\ Forall2 (load_rel k T) (dl_sqls d) (dl_sqls d').
  Definition row_rel k T (r r' : row) : Prop := tl_time r = tl_time r' /\ Forall2 (db_rel k T) (tl_dbs r) (tl_dbs r').
  Lemma Forall2_weak {A} (P Q : A -> A -> Prop) l l' : (forall x y, P x y -> Q x y) -> Forall2 P l l' -> Forall2 Q l l'.
  Proof. intros H F. induction F; constructor; auto. Qed.
  Section Step.
    Context (k : nat) (T : Q) (s : @sample Q).
    Hypothesis FEW : few k.
    Hypothesis VAL : is_float (s_value s) /\ 0 <= s_value s.
    Hypothesis TOT : 0 <= T /\ T + s_value s <= two 1010.
    Lemma load_rel_weak l l' : load_rel k T l l' -> load_rel (S k) (T + s_value s) l l'.
    Proof.
      intros [(A & B & C & D & E & F) G]. destruct VAL as [V1 V2]. split; [|lra]. split; [exact A|]. split; [exact B|]. split; [exact C|]. split; [exact D|]. split; [exact E|].
      apply within_mono with (2 * k)%nat; [lia|exact E|exact F].
    Qed.
    Lemma load_rel_new : load_rel (S k) (T + s_value s) (new_sql s) (new_sql s).
    Proof.
      destruct VAL as [V1 V2]. split; [|cbn [new_sql sl_sum]; lra]. split; [reflexivity|]. split; [reflexivity|]. split; [reflexivity|]. split; [exact V1|]. split; [exact V2|].
      unfold within_eps. cbn [new_sql sl_sum]. setoid_replace (s_value s - s_value s) with 0 by ring. change (Qabs 0) with 0.
      apply Qmult_le_0_compat; [|exact V2]. apply Qmult_le_0_compat; [apply cnt_nonneg|apply Qlt_le_weak, two_pos].
    Qed.
    Lemma load_rel_upd l l' : load_rel k T l l' -> load_rel (S k) (T + s_value s) (upd_sql (f_add rnd) qlt s l) (upd_sql Qplus qlt s l').
    Proof.
      intros [(A & B & C & D & E & F) G]. destruct VAL as [V1 V2].
      assert (within_eps 0 (s_value s) (s_value s)) as W0.
      { unfold within_eps. setoid_replace (s_value s - s_value s) with 0 by ring. change (Qabs 0) with 0. apply Qmult_le_0_compat; [|exact V2]. discriminate. }
      destruct (add_step k (sl_sum l) (sl_sum l') (s_value s) (s_value s) 0 FEW E V2 ltac:(lra) D V1 F W0 (or_introl eq_refl)) as [H1 H2].
      split; [|cbn [upd_sql sl_sum]; lra]. split; [exact A|]. split; [exact B|]. cbn [upd_sql sl_max sl_sum]. split; [now rewrite C|]. split; [exact H2|]. split; [lra|exact H1].
    Qed.
    Lemma db_rel_upd d d' : db_rel k T d d' -> db_rel (S k) (T + s_value s) (upd_db (f_add rnd) qlt s d) (upd_db Qplus qlt s d').
    Proof.
      intros [A B]. split; [exact A|]. cbn [upd_db dl_sqls]. apply (upsert_sim (load_rel k T)); [exact B| | | |apply load_rel_new].
      - intros l l' [(H & _) _]. now rewrite H.
      - apply load_rel_upd.
      - apply load_rel_weak.
    Qed.
    Lemma db_rel_weak d d' : db_rel k T d d' -> db_rel (S k) (T + s_value s) d d'.
    Proof. intros [A B]. split; [exact A|]. apply Forall2_weak with (2 := B). apply load_rel_weak. Qed.
    Lemma row_rel_upd r r' : row_rel k T r r' -> row_rel (S k) (T + s_value s) (upd_time (f_add rnd) qlt s r) (upd_time Qplus qlt s r').
    Proof.
      intros [A B]. split; [exact A|]. cbn [upd_time tl_dbs]. apply (upsert_sim (db_rel k T)); [exact B| | | |].
      - intros d d' [H _]. now rewrite H.
      - apply db_rel_upd.
      - apply db_rel_weak.
      - apply db_rel_upd. split; [reflexivity|constructor].
    Qed.
    Lemma table_step t t' : Forall2 (row_rel k T) t t' -> Forall2 (row_rel (S k) (T + s_value s)) (add_sample (f_add rnd) qlt t s) (add_sample Qplus qlt t' s).
    Proof.
      intros H. unfold add_sample. apply (upsert_sim (row_rel k T)); [exact H| | | |].
      - intros r r' [E _]. now rewrite E.
      - apply row_rel_upd.
      - intros r r' [A B]. split; [exact A|]. apply Forall2_weak with (2 := B). apply db_rel_weak.
      - apply row_rel_upd. split; [reflexivity|constructor].
    Qed.
  End Step.
  Lemma table_sim ss : forall k T t t', few (k + length ss) -> Forall (fun s => is_float (s_value s) /\ 0 <= s_value s) ss -> 0 <= T ->
    T + fold_right Qplus 0 (map s_value ss) <= two 1010 -> Forall2 (row_rel k T) t t' ->
    exists T', Forall2 (row_rel (k + length ss) T') (fold_left (add_sample (f_add rnd) qlt) ss t) (fold_left (add_sample Qplus qlt) ss t').
  Proof.
    induction ss as [|s ss IH]; intros k T t t' F V T0 U H.
    - exists T. cbn [length fold_left]. replace (k + 0)%nat with k by lia. exact H.
    - inversion V as [|x y V1 V2]; subst. cbn [map fold_right] in U. cbn [length fold_left].
      assert (0 <= fold_right Qplus 0 (map s_value ss)) as P.
      { clear -V2. induction V2 as [|x l [_ H] H2 IH]; cbn [map fold_right]; [apply Qle_refl|lra]. }
      replace (k + S (length ss))%nat with (S k + length ss)%nat by lia. apply (IH (S k) (T + s_value s)).
      + unfold few in *. cbn [length] in F. lia.
      + exact V2.
      + destruct V1. lra.
      + lra.
      + apply table_step; [unfold few in *; lia|exact V1| |exact H]. split; [exact T0|lra].
  Qed.
  Lemma rows_sim n fuel : forall t t' target end_, Forall2 (near_row n) t t' ->
    match load_rows fuel t target end_, load_rows fuel t' target end_ with
    | Some r, Some r' => Forall2 (near_row n) r r'
    | None, None => True
    | _, _ => False
    end.
  Proof.
    induction fuel as [|fuel IH]; intros t t' target end_ H; cbn [load_rows]; destruct (Z.ltb (t_ns end_) (t_ns target)); try constructor.
    specialize (IH t t' (tadd target hour) end_ H).
    assert (near_row n (match find (fun t => time_eqb (tl_time t) target) t with Some l => l | None => {| tl_time := target; tl_dbs := [] |} end)
                       (match find (fun t => time_eqb (tl_time t) target) t' with Some l => l | None => {| tl_time := target; tl_dbs := [] |} end)) as R.
    { clear IH. induction H as [|x y l l' H1 H2 IHl]; cbn [find]; [split; [reflexivity|constructor]|]. destruct H1 as [E D]. rewrite E.
      destruct (time_eqb (tl_time y) target); [split; assumption|exact IHl]. }
    destruct (load_rows fuel t (tadd target hour) end_), (load_rows fuel t' (tadd target hour) end_); cbn [option_map]; try assumption. constructor; assumption.
  Qed.
  Lemma rel_near k T r r' : row_rel k T r r' -> near_row (2 * k) r r'.
  Proof.
    intros [A B]. split; [exact A|]. apply Forall2_weak with (2 := B). intros d d' [C D]. split; [exact C|]. apply Forall2_weak with (2 := D). intros l l' [E _]. exact E.
  Qed.
  Lemma rows_near fuel start end_ avgs : let vs := map s_value (samples_of avgs) in
    plain_values vs -> few (length vs) ->
    match f_rows rnd fuel start end_ avgs, convert_loads Qplus qlt fuel start end_ avgs with
    | Some r, Some r' => Forall2 (near_row (2 * length vs)) r r'
    | None, None => True
    | _, _ => False
    end.
  Proof.
    intros vs [V1 V2] F. unfold f_rows, convert_loads. apply rows_sim. unfold load_table.
    destruct (table_sim (samples_of avgs) 0 0 [] []) as (T' & H).
    - unfold vs in F. rewrite map_length in F. exact F.
    - unfold vs in V1. apply Forall_map in V1. exact V1.
    - apply Qle_refl.
    - rewrite Qplus_0_l. apply Qle_trans with (1 := V2). apply two_le. lia.
    - constructor.
    - apply Forall2_weak with (2 := H). intros r r' R. unfold vs. rewrite map_length. now apply rel_near in R.
  Qed.

  (** ** The ranking *)
  Definition f_rank_event (ps : list rank) (e : row * (gostring * load)) : list rank :=
    let '(r, (db, l)) := e in f_rank_load rnd r db ps l.
  Lemma f_rank_fold : forall targets rows ps,
    fold_left (f_rank_row rnd targets) rows ps = fold_left f_rank_event (rank_events targets rows) ps.
  Proof.
    intros targets. induction rows as [|r rows IH]; intros ps; [reflexivity|]. cbn [fold_left rank_events flat_map].
    rewrite fold_left_app. fold (rank_events targets rows). rewrite <- IH. f_equal. unfold f_rank_row.
    generalize (tl_dbs r). intros ds. revert ps. induction ds as [|d ds IHd]; intros ps; [reflexivity|]. cbn [fold_left flat_map].
    rewrite fold_left_app, <- IHd. f_equal. unfold f_rank_db. destruct (includes targets (dl_name d)); [|reflexivity].
    generalize (dl_sqls d). intros ls. revert ps. induction ls as [|l ls IHl]; intros ps; [reflexivity|]. cbn [fold_left map].
    rewrite IHl. reflexivity.
  Qed.
  Definition rank_rel (k : nat) (T : Q) (p p' : rank) : Prop :=
    rk_db p = rk_db p' /\ rk_sql p = rk_sql p' /\ rk_tok p = rk_tok p' /\ rk_date p = rk_date p' /\ is_float (rk_percent p) /\ 0 <= rk_percent p' /\
    within_eps (2 * k) (rk_percent p) (rk_percent p') /\ rk_percent p' <= T /\ (1 <= k)%nat.
  Definition ev_sum (e : row * (gostring * load)) : Q := sl_sum (snd (snd e)).
  Lemma rank_step k T e ps ps' : few k -> is_float (ev_sum e) -> 0 <= ev_sum e -> 0 <= T -> T + ev_sum e * 100 <= two 1008 ->
    Forall2 (rank_rel k T) ps ps' -> Forall2 (rank_rel (S k) (T + ev_sum e * 100)) (f_rank_event ps e) (rank_event ps' e).
  Proof.
    intros F FE PE T0 U H. destruct e as [r [db l]]. unfold ev_sum in *. cbn [snd f_rank_event rank_event] in *. unfold f_rank_load, rank_load.
    assert (two 1008 == inject_Z (2 ^ 8) * two 1000) as TT by (rewrite <- (two_Z 8) by lia; rewrite <- two_plus; reflexivity). change (inject_Z (2 ^ 8)) with 256 in TT.
    pose proof (two_pos 1000) as TP.
    assert (two 1008 <= two 1010) as T8 by (apply two_le; lia).
    assert (T + sl_sum l * 100 <= 256 * two 1000) as U' by lra.
    assert (within_eps 1 (rnd (sl_sum l * 100)) (sl_sum l * 100) /\ is_float (rnd (sl_sum l * 100))) as [W1 W2].
    { assert (two 1003 == inject_Z (2 ^ 3) * two 1000) as T3 by (rewrite <- (two_Z 3) by lia; rewrite <- two_plus; reflexivity). change (inject_Z (2 ^ 3)) with 8 in T3.
      assert (two 1023 == inject_Z (2 ^ 23) * two 1000) as TX by (rewrite <- (two_Z 23) by lia; rewrite <- two_plus; reflexivity). change (inject_Z (2 ^ 23)) with 8388608 in TX.
      assert (moderate (sl_sum l * 100)) as M by (unfold moderate; rewrite Qabs_pos by lra; lra).
      assert (fine (sl_sum l * 100)) as FN by (apply (fine_mult (sl_sum l) 100); now apply float_fine).
      split; [|now apply rnd_float]. pose proof (rnd_rel rnd RND _ (or_intror FN) M) as R. rewrite (Qabs_pos (sl_sum l * 100)) in R by lra. unfold within_eps. change (cnt 1) with 1. lra. }
    apply (upsert_sim (rank_rel k T)); [exact H| | | |].
    - intros p p' (A & B & _). now rewrite A, B.
    - intros p p' (A & B & C & D & E & G & I & J & K). destruct (add_step k (rk_percent p) (rk_percent p') (sl_sum l * 100) (rnd (sl_sum l * 100)) 1) as [H1 H2]; try assumption; [lra|lra|now right|].
      unfold rank_rel. cbn [rk_db rk_sql rk_tok rk_date rk_percent]. split; [exact A|]. split; [exact B|]. split; [exact C|]. split; [exact D|]. split; [exact H2|]. split; [lra|]. split; [exact H1|]. split; [lra|lia].
    - intros p p' (A & B & C & D & E & G & I & J & K). split; [exact A|]. split; [exact B|]. split; [exact C|]. split; [exact D|]. split; [exact E|]. split; [exact G|].
      split; [apply within_mono with (2 * k)%nat; [lia|exact G|exact I]|]. split; [lra|lia].
    - unfold rank_rel. cbn [rk_db rk_sql rk_tok rk_date rk_percent]. split; [reflexivity|]. split; [reflexivity|]. split; [reflexivity|]. split; [reflexivity|]. split; [exact W2|]. split; [lra|].
      split; [apply within_mono with 1%nat; [lia|lra|exact W1]|]. split; [lra|lia].
  Qed.
  Lemma rank_sim evs : forall k T ps ps', few (k + length evs) -> Forall (fun e => is_float (ev_sum e) /\ 0 <= ev_sum e) evs -> 0 <= T ->
    T + fold_right Qplus 0 (map ev_sum evs) * 100 <= two 1008 -> Forall2 (rank_rel k T) ps ps' ->
    exists T', Forall2 (rank_rel (k + length evs) T') (fold_left f_rank_event evs ps) (fold_left rank_event evs ps').
  Proof.
    induction evs as [|e evs IH]; intros k T ps ps' F V T0 U H.
    - exists T. cbn [length fold_left]. replace (k + 0)%nat with k by lia. exact H.
    - inversion V as [|x y [V1 V1'] V2]; subst. cbn [map fold_right] in U. cbn [length fold_left].
      assert (0 <= fold_right Qplus 0 (map ev_sum evs)) as P.
      { clear -V2. induction V2 as [|x l [_ H] H2 IH]; cbn [map fold_right]; [apply Qle_refl|lra]. }
      replace (k + S (length evs))%nat with (S k + length evs)%nat by lia. apply (IH (S k) (T + ev_sum e * 100)).
      + unfold few in *. cbn [length] in F. lia.
      + exact V2.
      + lra.
      + lra.
      + apply rank_step; try assumption; [unfold few in *; lia|lra].
  Qed.
End R.
