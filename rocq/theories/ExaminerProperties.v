(** C05-C08: the examination run. *)
From Coq Require Import String List NArith ZArith Bool Lia.
From Verif Require Import Base Dec IndexText IndexTextSpec IndexTextProofs Examiner ExaminerSpec ExaminerProofs.
Import ListNotations.

(** ** C05 *)
Theorem temp_index_name_usable : forall unix rnd it, (rnd < 999999999)%N ->
    identifier (idx_name (dec_of_N unix) rnd it) /\
    byte_len (idx_name (dec_of_N unix) rnd it) <= 40 /\
    (length (dec_of_N unix ++ lit "_" ++ join (lit "_") (map safe_name (it_cols it))) <= 30 ->
     idx_name (dec_of_N unix) rnd it = dec_of_N unix ++ lit "_" ++ join (lit "_") (map safe_name (it_cols it))).
Proof.
  intros. split; [apply idx_name_identifier|]. split; [now apply idx_name_len|]. apply idx_name_short.
Qed.
Example temp_index_name_usable_ex :
  idx_name (dec_of_N 1660000000) 42 (mk_it (lit "t") [lit "a"; lit "b"]) = lit "1660000000_a_b" /\
  idx_name (dec_of_N 1660000000) 999999998
    (mk_it (lit "t") [lit "a_quite_long_column_name"; lit "another_long_column_name"])
  = lit "1660000000_a_quite_long_column_999999998".
Proof. vm_compute. auto. Qed.
Print Assumptions temp_index_name_usable.

(** All names passed to the database in a run are of that kind, and for a given target. *)
Theorem run_uses_such_names : forall (W : Type) (db : database W) w unix rnds its tr w' r,
    run db w unix rnds its = (tr, w', r) -> (forall j, (rnds j < 999999999)%N) ->
    forall n it a, In (EvCreate n it a) tr \/ In (EvDrop n it a) tr ->
      In it its /\ identifier n /\ byte_len n <= 40.
Proof.
  intros W db w unix rnds its tr w' r H Hr n it a HI.
  destruct (run_names db _ _ _ _ _ _ _ H _ _ _ HI) as [Hin [j ->]].
  split; auto. split; [apply idx_name_identifier|now apply idx_name_len].
Qed.

(** ** A concrete database to show the hypotheses are satisfiable: the state is
    the list of (table, name) pairs; creating an existing index fails. *)
Definition pair_eqb (a b : gostring * gostring) : bool := (seqb (fst a) (fst b) && seqb (snd a) (snd b))%bool.
Definition toy_key (n : gostring) (it : index_target) := (it_table it, n).
Definition toy_db (fails : bool) : database (list (gostring * gostring)) :=
  {| db_execute := fun w => (w, if fails then inr (lit "timeout") else inl (Z.of_nat (length w)));
     db_create := fun w n it => if existsb (pair_eqb (toy_key n it)) w then (w, Some (lit "duplicate"))
                                else (toy_key n it :: w, None);
     db_drop := fun w n it => (filter (fun k => negb (pair_eqb (toy_key n it) k)) w, None) |}.
Lemma pair_eqb_iff : forall a b, pair_eqb a b = true <-> a = b.
Proof.
  intros [a1 a2] [b1 b2]. unfold pair_eqb. simpl. rewrite andb_true_iff, !seqb_eq.
  split; [intros [-> ->]; auto|]. intros H; inversion H; auto.
Qed.
Lemma toy_db_ok : forall fails, index_database (toy_db fails) toy_key (fun w k => In k w).
Proof.
  intros fails. constructor; simpl.
  - intros w w' a H k. inversion H; subst. tauto.
  - intros w n it w' H. destruct (existsb _ w) eqn:E; inversion H; subst. split.
    + intros HI. assert (existsb (pair_eqb (toy_key n it)) w = true); [|congruence].
      apply existsb_exists. exists (toy_key n it). split; auto. now apply pair_eqb_iff.
    + intros k. simpl. intuition.
  - intros w n it w' e H k. destruct (existsb _ w); inversion H; subst. tauto.
  - intros w n it w' H k. inversion H; subst. rewrite filter_In, negb_true_iff.
    split; intros [H1 H2]; split; auto.
    + intros ->. assert (pair_eqb (toy_key n it) (toy_key n it) = true) by now apply pair_eqb_iff. congruence.
    + destruct (pair_eqb (toy_key n it) k) eqn:E; auto. apply pair_eqb_iff in E. congruence.
  - intros w n it w' e H. inversion H.
Qed.
Definition toy_its : list index_target := [mk_it (lit "users") [lit "name"]; mk_it (lit "tasks") [lit "a"; lit "b"]].

Example run_uses_such_names_ex :
  In (EvCreate (lit "1660000000_a_b") (mk_it (lit "tasks") [lit "a"; lit "b"]) None)
     (fst (fst (run (toy_db false) [] 1660000000 (fun _ => 7%N) toy_its))).
Proof. vm_compute. tauto. Qed.
Print Assumptions run_uses_such_names.

(** ** C06 *)
(** Every successful creation is directly followed by one execution and the drop
    of the same index, whatever fails. *)
Theorem created_index_is_dropped : forall (W : Type) (db : database W) w unix rnds its tr w' r,
    run db w unix rnds its = (tr, w', r) ->
    forall p n it s, tr = p ++ EvCreate n it None :: s ->
      exists x d s', s = EvExecute x :: EvDrop n it d :: s'.
Proof. intros W db w unix rnds its tr w' r H. exact (run_create_drop _ _ _ (run_shape db _ _ _ _ _ _ _ H)). Qed.
Example created_index_is_dropped_ex :
  length (fst (fst (run (toy_db false) [] 1660000000 (fun _ => 7%N) toy_its))) = 7.
Proof. vm_compute. reflexivity. Qed.
Print Assumptions created_index_is_dropped.

(** At every instant the existing indexes are the initial ones plus at most one. *)
Theorem at_most_one_temporary_index : forall (W K : Type) (key : gostring -> index_target -> K) (db : database W) ix,
    index_database db key ix ->
    forall w unix rnds its tr w' r, run db w unix rnds its = (tr, w', r) ->
    forall p, prefix_of_trace p tr ->
      (forall k, ix w k -> replay key (ix w) p k) /\
      (forall k1 k2, replay key (ix w) p k1 -> ~ ix w k1 -> replay key (ix w) p k2 -> ~ ix w k2 -> k1 = k2).
Proof.
  intros W K key db ix HDB w unix rnds its tr w' r H.
  exact (proj1 (proj2 (run_index_set key db ix HDB _ _ _ _ _ _ _ H))).
Qed.
Example at_most_one_temporary_index_ex :
  index_database (toy_db false) toy_key (fun w k => In k w) /\
  exists p tr w' r, run (toy_db false) [] 1660000000 (fun _ => 7%N) toy_its = (tr, w', r) /\
    prefix_of_trace p tr /\ replay toy_key (fun k => In k []) p (lit "tasks", lit "1660000000_a_b").
Proof.
  split; [apply toy_db_ok|].
  remember (run (toy_db false) [] 1660000000 (fun _ => 7%N) toy_its) as x eqn:E.
  destruct x as [[tr w'] r]. exists (firstn 5 tr), tr, w', r. split; auto.
  split; [exists (skipn 5 tr); symmetry; apply firstn_skipn|].
  vm_compute in E. inversion E; subst. vm_compute. tauto.
Qed.
Print Assumptions at_most_one_temporary_index.

(** If no drop failed, the index set is the one before the run - also if the run
    as a whole failed. *)
Theorem no_index_left_behind : forall (W K : Type) (key : gostring -> index_target -> K) (db : database W) ix,
    index_database db key ix ->
    forall w unix rnds its tr w' r, run db w unix rnds its = (tr, w', r) ->
    (forall n it e, ~ In (EvDrop n it (Some e)) tr) -> forall k, ix w' k <-> ix w k.
Proof.
  intros W K key db ix HDB w unix rnds its tr w' r H.
  exact (proj2 (proj2 (run_index_set key db ix HDB _ _ _ _ _ _ _ H))).
Qed.
Example no_index_left_behind_ex :
  snd (fst (run (toy_db false) [(lit "users", lit "pk")] 1660000000 (fun _ => 7%N) toy_its)) = [(lit "users", lit "pk")].
Proof. vm_compute. reflexivity. Qed.
Print Assumptions no_index_left_behind.

(** The trace tells the truth: the final index set is its replay. *)
Theorem final_index_set_is_replay : forall (W K : Type) (key : gostring -> index_target -> K) (db : database W) ix,
    index_database db key ix ->
    forall w unix rnds its tr w' r, run db w unix rnds its = (tr, w', r) ->
    forall k, ix w' k <-> replay key (ix w) tr k.
Proof.
  intros W K key db ix HDB w unix rnds its tr w' r H.
  exact (proj1 (run_index_set key db ix HDB _ _ _ _ _ _ _ H)).
Qed.
Example final_index_set_is_replay_ex : index_database (toy_db true) toy_key (fun w k => In k w).
Proof. apply toy_db_ok. Qed.
Print Assumptions final_index_set_is_replay.

(** ** C07 *)
Theorem only_own_indexes_dropped : forall (W : Type) (db : database W) w unix rnds its tr w' r,
    run db w unix rnds its = (tr, w', r) ->
    forall p n it d s, tr = p ++ EvDrop n it d :: s ->
      exists p' x, p = p' ++ [EvCreate n it None; EvExecute x].
Proof. intros W db w unix rnds its tr w' r H. exact (run_drop_create _ _ _ (run_shape db _ _ _ _ _ _ _ H)). Qed.
Example only_own_indexes_dropped_ex :
  exists p s, fst (fst (run (toy_db false) [] 1660000000 (fun _ => 7%N) toy_its))
              = p ++ EvDrop (lit "1660000000_name") (mk_it (lit "users") [lit "name"]) None :: s /\ length p = 3.
Proof. eexists [_; _; _]. eexists. vm_compute. split; reflexivity. Qed.
Print Assumptions only_own_indexes_dropped.

(** Indexes existing before the run survive it, whatever fails. *)
Theorem existing_indexes_survive : forall (W K : Type) (key : gostring -> index_target -> K) (db : database W) ix,
    index_database db key ix ->
    forall w unix rnds its tr w' r, run db w unix rnds its = (tr, w', r) ->
    forall k, ix w k -> ix w' k.
Proof.
  intros W K key db ix HDB w unix rnds its tr w' r H k Hk.
  destruct (run_index_set key db ix HDB _ _ _ _ _ _ _ H) as (H1 & H2 & _).
  apply H1. apply (H2 tr); auto. exists []. now rewrite app_nil_r.
Qed.
(** Even an index that happens to have the temporary name: creation fails, no drop. *)
Example existing_indexes_survive_ex :
  run (toy_db false) [(lit "users", lit "1660000000_name")] 1660000000 (fun _ => 7%N) toy_its =
  ([EvExecute (inl 1%Z); EvCreate (lit "1660000000_name") (mk_it (lit "users") [lit "name"]) (Some (lit "duplicate"))],
   [(lit "users", lit "1660000000_name")], Err (lit "duplicate")).
Proof. vm_compute. reflexivity. Qed.
Print Assumptions existing_indexes_survive.

(** ** C08 *)
Theorem examination_ok_iff : forall (W : Type) (db : database W) w unix rnds its tr w' r,
    run db w unix rnds its = (tr, w', r) ->
    ((exists er, r = Ok er) <-> Forall succeeded tr) /\ r <> Panic.
Proof.
  intros W db w unix rnds its tr w' r H. pose proof (run_shape db _ _ _ _ _ _ _ H) as HS.
  split; [now apply (run_ok_iff _ _ _ HS)|now apply (run_no_panic _ _ _ HS)].
Qed.
Example examination_ok_iff_ex :
  Forall succeeded (fst (fst (run (toy_db false) [] 1660000000 (fun _ => 7%N) toy_its))).
Proof. vm_compute. repeat constructor. Qed.
Print Assumptions examination_ok_iff.

(** On success: the targets in order; per target exactly create, execute, drop; the
    reported time is that execution's; the original time is the first execution's. *)
Theorem examination_results_faithful : forall (W : Type) (db : database W) w unix rnds its tr w' er,
    run db w unix rnds its = (tr, w', Ok er) ->
    map ir_target (er_results er) = its /\
    exists names, length names = length its /\
      tr = EvExecute (inl (er_original er)) ::
           flat_map (fun p => [EvCreate (fst p) (ir_target (snd p)) None;
                               EvExecute (inl (ir_millis (snd p)));
                               EvDrop (fst p) (ir_target (snd p)) None]) (combine names (er_results er)).
Proof.
  intros W db w unix rnds its tr w' er H. pose proof (run_shape db _ _ _ _ _ _ _ H) as HS.
  exact (run_ok_results _ _ _ HS er eq_refl).
Qed.
Example examination_results_faithful_ex :
  snd (run (toy_db false) [(lit "x", lit "y")] 1660000000 (fun _ => 7%N) toy_its) =
  Ok {| er_results := [ {| ir_target := mk_it (lit "users") [lit "name"]; ir_millis := 2 |};
                        {| ir_target := mk_it (lit "tasks") [lit "a"; lit "b"]; ir_millis := 2 |} ];
        er_original := 1 |}.
Proof. vm_compute. reflexivity. Qed.
Print Assumptions examination_results_faithful.

(** On failure: everything before the first failing call succeeded, after it comes
    nothing but the pending drop, and the returned error is that call's. *)
Theorem examination_failure_faithful : forall (W : Type) (db : database W) w unix rnds its tr w' m,
    run db w unix rnds its = (tr, w', Err m) ->
    exists p ev s e, tr = p ++ ev :: s /\ Forall succeeded p /\ failed_with ev e /\
      (s = [] \/ (exists n it d, s = [EvDrop n it d])) /\
      (m = e \/ ((exists n it x, ev = EvDrop n it x) /\ m = lit "failed to drop index: " ++ e)).
Proof.
  intros W db w unix rnds its tr w' m H. pose proof (run_shape db _ _ _ _ _ _ _ H) as HS.
  exact (run_err _ _ _ HS m eq_refl).
Qed.
Definition failing_db : database nat :=
  {| db_execute := fun w => (S w, if Nat.eqb w 2 then inr (lit "timeout") else inl 5%Z);
     db_create := fun w n it => (S w, None);
     db_drop := fun w n it => (S w, Some (lit "lost connection")) |}.
(** The drop error is swallowed when the measurement already failed. *)
Example examination_failure_faithful_ex :
  snd (run failing_db 0 1660000000 (fun _ => 7%N) toy_its) = Err (lit "timeout") /\
  length (fst (fst (run failing_db 0 1660000000 (fun _ => 7%N) toy_its))) = 4 /\
  snd (run failing_db 3 1660000000 (fun _ => 7%N) toy_its) = Err (lit "failed to drop index: lost connection").
Proof. vm_compute. auto. Qed.
Print Assumptions examination_failure_faithful.

(** The targets for which an index is asked are an initial part of the given list;
    all of it on success. *)
Theorem examined_targets : forall (W : Type) (db : database W) w unix rnds its tr w' r,
    run db w unix rnds its = (tr, w', r) ->
    exists rest, its = asked tr ++ rest /\ ((exists er, r = Ok er) -> rest = []).
Proof.
  intros W db w unix rnds its tr w' r H. exact (run_asked _ _ _ (run_shape db _ _ _ _ _ _ _ H)).
Qed.
Example examined_targets_ex : asked (fst (fst (run failing_db 0 1660000000 (fun _ => 7%N) toy_its))) = [mk_it (lit "users") [lit "name"]].
Proof. vm_compute. reflexivity. Qed.
Print Assumptions examined_targets.
