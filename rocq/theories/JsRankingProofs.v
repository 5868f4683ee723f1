(** The rankings with JavaScript's objects as maps. *)
From Coq Require Import String List NArith ZArith QArith Bool Lia Arith Permutation.
From Verif Require Import Base IndexBuild Pi LoadCharts LoadChartsSpec LoadChartsProofs JsCharts JsChartsSpec JsChartsProofs.
Import ListNotations.
Local Open Scope nat_scope.

(** ** Own members *)
Lemma put_keys : forall V k (v : V) o, map fst (put k v o) = if existsb (fun e => seqb (fst e) k) o then map fst o else map fst o ++ [k].
Proof.
  intros V k v o. induction o as [|e o IH]; [reflexivity|]. cbn [put map existsb]. destruct (seqb (fst e) k) eqn:E; cbn [orb map app].
  - apply seqb_eq in E. cbn [fst]. now rewrite E.
  - rewrite IH. destruct (existsb _ o); reflexivity.
Qed.
Lemma put_nodup : forall V k (v : V) o, NoDup (map fst o) -> NoDup (map fst (put k v o)).
Proof.
  intros V k v o N. rewrite put_keys. destruct (existsb (fun e => seqb (fst e) k) o) eqn:E; [exact N|].
  apply Permutation_NoDup with (k :: map fst o); [apply Permutation_cons_append|]. constructor; [|exact N].
  intros I. apply in_map_iff in I as (e & <- & I). assert (existsb (fun e0 => seqb (fst e0) (fst e)) o = true); [|congruence].
  apply existsb_exists. exists e. split; [exact I|apply seqb_refl'].
Qed.
Lemma own_in : forall V (o : list (gostring * V)) k v, NoDup (map fst o) -> (own k o = Some v <-> In (k, v) o).
Proof.
  intros V o k v. unfold own. induction o as [|e o IH]; intros N; cbn [find].
  - split; [discriminate|intros []].
  - cbn [map] in N. apply NoDup_cons_iff in N as [N1 N2]. destruct (seqb (fst e) k) eqn:E.
    + apply seqb_eq in E. cbn [option_map]. split.
      * intros H. injection H as <-. left. rewrite <- E. now destruct e.
      * intros [-> | I]; [reflexivity|]. destruct N1. rewrite E. apply (in_map fst) in I. exact I.
    + rewrite (IH N2). split; [now right|]. intros [-> | I]; [|exact I]. cbn [fst] in E. rewrite seqb_refl' in E. discriminate.
Qed.
Lemma put_in : forall V k (v : V) o e, In e (put k v o) -> e = (k, v) \/ In e o.
Proof.
  intros V k v o e. induction o as [|x o IH]; cbn [put].
  - intros [<- | []]. now left.
  - destruct (seqb (fst x) k); intros [<- | I]; [now left|right; now right|right; now left|]. destruct (IH I); [now left|right; now right].
Qed.

(** ** Object.keys lists every key once *)
Lemma insert_key_perm : forall n k l, Permutation (map snd (insert_key n k l)) (k :: map snd l).
Proof.
  intros n k l. induction l as [|[m k'] l IH]; [reflexivity|]. cbn [insert_key]. destruct (N.ltb n m); [reflexivity|]. cbn [map snd].
  rewrite IH. apply perm_swap.
Qed.
Lemma js_keys_perm : forall l, Permutation (js_keys l) l.
Proof.
  intros l. unfold js_keys. induction l as [|k l IH]; [reflexivity|]. cbn [index_keys filter]. destruct (index_key k) as [n|].
  - rewrite insert_key_perm. cbn [app]. now constructor.
  - rewrite <- Permutation_middle. now constructor.
Qed.

(** ** The entries *)
Definition entry_of (props : list (gostring * list (gostring * rank))) (k : gostring * gostring) : option rank :=
  match own (fst k) props with Some inner => own (snd k) inner | None => None end.
Definition ranked (props : list (gostring * list (gostring * rank))) (ps : list rank) : Prop :=
  (forall k, entry_of props k = get rk_key ps k) /\ NoDup (map rk_key ps) /\
  NoDup (map fst props) /\ (forall e, In e props -> NoDup (map fst (snd e)) /\ inherited (fst e) = false) /\
  (forall k, entry_of props k <> None -> inherited (snd k) = false).

Lemma flat_map_perm : forall A B (f : A -> list B) l l', Permutation l l' -> Permutation (flat_map f l) (flat_map f l').
Proof.
  intros A B f l l' P. induction P as [|x l l' P IH|x y l|l l' l'' P1 IH1 P2 IH2]; cbn [flat_map].
  - constructor.
  - now apply Permutation_app_head.
  - rewrite !app_assoc. apply Permutation_app_tail, Permutation_app_comm.
  - now rewrite IH1.
Qed.
Lemma in_all_props : forall props p, In p (all_props props) <-> exists k, entry_of props k = Some p.
Proof.
  intros props p. unfold all_props, entry_of. rewrite in_flat_map. split.
  - intros (db & _ & I). destruct (own db props) as [inner|] eqn:O; [|destruct I]. apply in_flat_map in I as (sql & _ & I).
    destruct (own sql inner) as [p'|] eqn:O2; [|destruct I]. destruct I as [<- | []]. exists (db, sql). cbn [fst snd]. now rewrite O.
  - intros ((db & sql) & E). cbn [fst snd] in E. destruct (own db props) as [inner|] eqn:O; [|discriminate].
    assert (forall V k (v : V) o, own k o = Some v -> In k (map fst o)) as IN.
    { intros V k v o. unfold own. destruct (find _ o) as [e|] eqn:F; [|discriminate]. intros _. apply find_some in F as [F1 F2].
      apply seqb_eq in F2 as <-. now apply in_map. }
    exists db. split; [apply (Permutation_in _ (Permutation_sym (js_keys_perm _))); eauto|]. rewrite O. apply in_flat_map. exists sql.
    split; [apply (Permutation_in _ (Permutation_sym (js_keys_perm _))); eauto|]. rewrite E. now left.
Qed.
Lemma nodup_flat : forall A B C (f : A -> list B) (g : B -> C) (c : A -> C -> Prop) l, NoDup l ->
  (forall a, In a l -> NoDup (map g (f a))) -> (forall a b, In a l -> In b (f a) -> c a (g b)) -> (forall a a' x, c a x -> c a' x -> a = a') ->
  NoDup (map g (flat_map f l)).
Proof.
  intros A B C f g c l N H1 H2 H3. induction l as [|a l IH]; [constructor|]. cbn [flat_map]. rewrite map_app. apply NoDup_cons_iff in N as [N1 N2].
  assert (NoDup (map g (flat_map f l))) as IH' by (apply IH; [exact N2| |]; intros; [apply H1|apply H2]; auto; now right). clear IH.
  specialize (H1 a (or_introl eq_refl)).
  assert (forall x, In x (map g (f a)) -> ~ In x (map g (flat_map f l))) as D.
  { intros x I J. apply in_map_iff in I as (b & <- & I). apply in_map_iff in J as (b' & E & J). apply in_flat_map in J as (a' & J1 & J2).
    assert (a = a'); [|subst; contradiction]. eapply H3; [apply H2; [now left|exact I]|]. rewrite <- E. apply H2; [now right|exact J2]. }
  revert H1 D. induction (map g (f a)) as [|x m IHm]; intros H1 D; [exact IH'|]. cbn [app]. apply NoDup_cons_iff in H1 as [H1 H1'].
  constructor.
  - intros I. apply in_app_iff in I as [I | I]; [contradiction|]. apply (D x); [now left|exact I].
  - apply IHm; [exact H1'|]. intros y I. apply D. now right.
Qed.
Lemma ranked_entries : forall props ps, ranked props ps -> Permutation (all_props props) ps.
Proof.
  intros props ps (R1 & R2 & R3 & R4 & _).
  assert (forall k p, entry_of props k = Some p -> rk_key p = k) as KEY by (intros k p E; rewrite R1 in E; now apply get_key in E as [E _]).
  apply NoDup_Permutation.
  - apply (NoDup_map_inv rk_key). unfold all_props.
    apply nodup_flat with (c := fun db k => fst k = db); [eapply Permutation_NoDup; [apply Permutation_sym, js_keys_perm|exact R3]| | |congruence].
    + intros db _. destruct (own db props) as [inner|] eqn:O; [|constructor].
      assert (NoDup (map fst inner)) as NI. { apply own_in in O; [|exact R3]. exact (proj1 (R4 _ O)). }
      apply nodup_flat with (c := fun sql k => snd k = sql); [eapply Permutation_NoDup; [apply Permutation_sym, js_keys_perm|exact NI]| | |congruence].
      * intros sql _. destruct (own sql inner); [|constructor]. cbn. constructor; [easy|constructor].
      * intros sql p _ I. destruct (own sql inner) as [p'|] eqn:O2; [|destruct I]. destruct I as [<- | []].
        rewrite (KEY (db, sql) p'); [reflexivity|]. unfold entry_of. cbn [fst snd]. now rewrite O.
    + intros db p _ I. destruct (own db props) as [inner|] eqn:O; [|destruct I]. apply in_flat_map in I as (sql & _ & I).
      destruct (own sql inner) as [p'|] eqn:O2; [|destruct I]. destruct I as [<- | []].
      rewrite (KEY (db, sql) p'); [reflexivity|]. unfold entry_of. cbn [fst snd]. now rewrite O.
  - now apply (NoDup_map_inv rk_key).
  - intros p. rewrite in_all_props. split.
    + intros (k & E). rewrite R1 in E. now apply get_key in E.
    + intros I. exists (rk_key p). rewrite R1. now apply get_in.
Qed.
Lemma entry_put : forall props db inner sql p k, own db props = Some inner ->
  entry_of (put db (put sql p inner) props) k = if keq (db, sql) k then Some p else entry_of props k.
Proof.
  intros props db inner sql p [db' sql'] O. unfold entry_of, keq. cbn [fst snd]. rewrite own_put. destruct (seqb db db') eqn:E; cbn [andb]; [|reflexivity].
  apply seqb_eq in E as <-. rewrite O, own_put. reflexivity.
Qed.

Section Ranking.
  Context (member : gostring -> gostring -> option bool) (targets : list gostring).
  Definition mild (db : gostring) (l : load) : Prop := inherited db = true -> member db (sl_sql l) <> Some true.
  Definition good (l : load) : bool := negb (inherited (sl_sql l)).

  Lemma load_ranked : forall r db s ps l, ranked (rs_props s) ps -> own db (rs_props s) <> None ->
    exists s', js_rank_load member r db s l = Ok s' /\ ranked (rs_props s') (if good l then rank_load r db ps l else ps) /\
      own db (rs_props s') <> None.
  Proof.
    intros r db s ps l (R1 & R2 & R3 & R4 & R5) O. unfold js_rank_load. destruct (own db (rs_props s)) as [inner|] eqn:OD; [|congruence]. clear O.
    assert (NoDup (map fst inner) /\ inherited db = false) as [NI ID] by (apply own_in in OD; [|exact R3]; exact (R4 _ OD)).
    assert (own (sl_sql l) inner = get rk_key ps (db, sl_sql l)) as G.
    { rewrite <- R1. unfold entry_of. cbn [fst snd]. now rewrite OD. }
    assert (forall p, good l = true -> p = match get rk_key ps (db, sl_sql l) with
         | Some p => {| rk_db := rk_db p; rk_sql := rk_sql p; rk_percent := rk_percent p + sl_sum l * 100; rk_tok := rk_tok p; rk_date := rk_date p |}
         | None => {| rk_db := db; rk_sql := sl_sql l; rk_percent := sl_sum l * 100; rk_tok := sl_tok l; rk_date := row_date r |} end ->
      ranked (put db (put (sl_sql l) p inner) (rs_props s)) (rank_load r db ps l)) as STEP.
    { intros p GL ->. split; [|split; [|split; [|split]]].
      - intros k. rewrite (entry_put _ _ _ _ _ _ OD), R1. unfold rank_load.
        match goal with |- _ = get rk_key (upsert _ ?new ?upd ps) k =>
          change (get rk_key (upsert _ new upd ps) k) with (get rk_key (upsert (fun e => keq (rk_key e) (db, sl_sql l)) new upd ps) k) end.
        rewrite get_upsert; [|reflexivity|reflexivity]. destruct (keq (db, sl_sql l) k) eqn:E; [|reflexivity]. apply keq_eq in E as <-. reflexivity.
      - unfold rank_load. match goal with |- NoDup (map rk_key (upsert _ ?new ?upd ps)) =>
          exact (keys_upsert rk_key (db, sl_sql l) new upd ps eq_refl (fun e => eq_refl) R2) end.
      - now apply put_nodup.
      - intros e I. apply put_in in I as [-> | I]; [|now apply R4]. cbn [fst snd]. split; [now apply put_nodup|exact ID].
      - intros k. rewrite (entry_put _ _ _ _ _ _ OD). destruct (keq (db, sl_sql l) k) eqn:E; [|apply R5].
        apply keq_eq in E as <-. intros _. cbn [snd]. unfold good in GL. now apply negb_true_iff in GL. }
    assert (forall p, own db (put db (put (sl_sql l) p inner) (rs_props s)) <> None) as OP by (intros p; rewrite own_put, seqb_refl'; discriminate).
    destruct (own (sl_sql l) inner) as [p|] eqn:OS.
    - eexists. split; [reflexivity|]. split; [|apply OP]. cbn [rs_props]. destruct (good l) eqn:GL.
      + apply STEP; [reflexivity|]. now rewrite <- G.
      + exfalso. unfold good in GL. assert (inherited (sl_sql l) = false) as X; [|rewrite X in GL; discriminate].
        apply (R5 (db, sl_sql l)). unfold entry_of. cbn [fst snd]. rewrite OD, OS. discriminate.
    - unfold good in *. destruct (inherited (sl_sql l)) eqn:I; cbn [negb].
      + exists s. split; [reflexivity|]. split; [|congruence]. now repeat (split; [assumption|]).
      + eexists. split; [reflexivity|]. split; [|apply OP]. apply STEP; [reflexivity|]. now rewrite <- G.
  Qed.
  Lemma loads_ranked : forall r db ls s ps, ranked (rs_props s) ps -> own db (rs_props s) <> None ->
    exists s', ofold (js_rank_load member r db) ls s = Ok s' /\ ranked (rs_props s') (fold_left (rank_load r db) (filter good ls) ps).
  Proof.
    intros r db ls. induction ls as [|l ls IH]; intros s ps R O; cbn [ofold filter fold_left]; [now exists s|].
    destruct (load_ranked r db s ps l R O) as (s1 & -> & R1 & O1). cbn [obind]. destruct (IH s1 _ R1 O1) as (s2 & E & R2).
    exists s2. split; [exact E|]. destruct (good l); exact R2.
  Qed.
  (** nothing of an inherited object is listed *)
  Lemma loads_hidden : forall r db ls s, own db (rs_props s) = None -> inherited db = true -> (forall l, In l ls -> mild db l) ->
    exists s', ofold (js_rank_load member r db) ls s = Ok s' /\ rs_props s' = rs_props s.
  Proof.
    intros r db ls. induction ls as [|l ls IH]; intros s O I MI; cbn [ofold]; [now exists s|].
    assert (exists s1, js_rank_load member r db s l = Ok s1 /\ rs_props s1 = rs_props s) as (s1 & -> & E).
    { unfold js_rank_load. rewrite O. destruct (own (sl_sql l) _); [now exists s|]. pose proof (MI l (or_introl eq_refl) I) as M.
      destruct (member db (sl_sql l)) as [[]|]; [now elim M|now exists s|]. eexists. split; reflexivity. }
    cbn [obind]. destruct (IH s1) as (s2 & E2 & E3); [congruence|exact I|intros l' J; apply MI; now right|]. exists s2. split; [exact E2|congruence].
  Qed.
  Definition keep_db (d : @db_load Q) : @db_load Q := {| dl_name := dl_name d; dl_sqls := filter good (dl_sqls d) |}.
  Definition good_db (d : @db_load Q) : bool := negb (inherited (dl_name d)).
  Definition keep_row (r : row) : row := {| tl_time := tl_time r; tl_dbs := map keep_db (filter good_db (tl_dbs r)) |}.
  Lemma ranked_no_entry : forall db props ps, own db props = None -> inherited db = false -> ranked props ps -> ranked (put db [] props) ps.
  Proof.
    intros db props ps O I (R1 & R2 & R3 & R4 & R5).
    assert (forall k, entry_of (put db [] props) k = entry_of props k) as E.
    { intros [db' sql]. unfold entry_of. cbn [fst snd]. rewrite own_put. destruct (seqb db db') eqn:E; [|reflexivity]. apply seqb_eq in E as <-. now rewrite O. }
    split; [intros k; now rewrite E|]. split; [exact R2|]. split; [now apply put_nodup|]. split; [|intros k; rewrite E; apply R5].
    intros e J. apply put_in in J as [-> | J]; [|now apply R4]. cbn [fst snd]. split; [constructor|exact I].
  Qed.
  Definition mild_db (x : @db_load Q) : Prop := In (dl_name x) targets -> forall l, In l (dl_sqls x) -> mild (dl_name x) l.
  Lemma dbs_ranked : forall r xs s ps, ranked (rs_props s) ps -> (forall x, In x xs -> mild_db x) ->
    exists s', ofold (js_rank_db member targets r) xs s = Ok s' /\
      ranked (rs_props s') (fold_left (rank_db targets (keep_row r)) (map keep_db (filter good_db xs)) ps).
  Proof.
    intros r xs. induction xs as [|x xs IH]; intros s ps R MI; cbn [ofold filter map fold_left]; [now exists s|].
    assert (exists s1, js_rank_db member targets r s x = Ok s1 /\
      ranked (rs_props s1) (if good_db x then rank_db targets (keep_row r) ps (keep_db x) else ps)) as (s1 & -> & R1).
    { unfold js_rank_db, rank_db, good_db. cbn [keep_db dl_name dl_sqls]. destruct (includes targets (dl_name x)) eqn:T; [|exists s; split; [reflexivity|]; destruct (negb _); exact R].
      change (rank_load (keep_row r) (dl_name x)) with (rank_load r (dl_name x)).
      destruct (own (dl_name x) (rs_props s)) as [inner|] eqn:O.
      - assert (inherited (dl_name x) = false) as ->. { destruct R as (_ & _ & R3 & R4 & _). apply own_in in O; [|exact R3]. exact (proj2 (R4 _ O)). }
        apply loads_ranked; [exact R|congruence].
      - destruct (inherited (dl_name x)) eqn:I; cbn [negb].
        + destruct (loads_hidden r (dl_name x) (dl_sqls x) s O I) as (s1 & E1 & E2); [apply (MI x (or_introl eq_refl)); now apply includes_in|]. exists s1. split; [exact E1|]. now rewrite E2.
        + apply loads_ranked; cbn [rs_props]; [now apply ranked_no_entry|]. rewrite own_put, seqb_refl'. discriminate. }
    cbn [obind]. destruct (IH s1 _ R1) as (s2 & E & R2); [intros x' J; apply MI; now right|]. exists s2. split; [exact E|]. destruct (good_db x); exact R2.
  Qed.
  Lemma rows_ranked : forall rows s ps, ranked (rs_props s) ps -> (forall r x, In r rows -> In x (tl_dbs r) -> mild_db x) ->
    exists s', ofold (js_rank_row member targets) rows s = Ok s' /\ ranked (rs_props s') (fold_left (rank_row targets) (map keep_row rows) ps).
  Proof.
    intros rows. induction rows as [|r rows IH]; intros s ps R MI; cbn [ofold map fold_left]; [now exists s|].
    destruct (dbs_ranked r (tl_dbs r) s ps R) as (s1 & E & R1); [intros x J; apply (MI r); [now left|exact J]|].
    unfold js_rank_row at 1. rewrite E. cbn [obind]. apply (IH s1 _ R1). intros r' x J. apply MI. now right.
  Qed.
End Ranking.
Lemma ranked_nil : ranked [] [].
Proof.
  split; [reflexivity|]. split; [constructor|]. split; [constructor|]. split; [intros e []|]. intros k H. now elim H.
Qed.
Lemma part_filter : forall A B (keep : A -> Prop) (f : A -> bool) (g : A -> B) (same : A -> B -> Prop) l,
  (forall a, f a = true <-> keep a) -> (forall a, same a (g a)) -> part keep same l (map g (filter f l)).
Proof.
  intros A B keep f g same l F G. induction l as [|a l IH]; cbn [filter]; [constructor|]. destruct (f a) eqn:E; cbn [map].
  - constructor; [now apply F|apply G|exact IH].
  - apply part_drop; [|exact IH]. intros K. apply F in K. congruence.
Qed.
Lemma keep_rows_plain : forall rows, plain_rows rows (map keep_row rows).
Proof.
  intros rows. unfold plain_rows. induction rows as [|r rows IH]; cbn [map]; constructor; [|exact IH].
  assert (forall k, negb (inherited k) = true <-> ~ on_every_object k) as NK.
  { intros k. rewrite <- inherited_spec. destruct (inherited k); cbn; intuition congruence. }
  split; [reflexivity|]. apply part_filter; [intros d; apply NK|]. intros d. split; [reflexivity|]. cbn [keep_db dl_sqls].
  rewrite <- (map_id (filter good (dl_sqls d))). apply part_filter; [intros l; apply NK|reflexivity].
Qed.
