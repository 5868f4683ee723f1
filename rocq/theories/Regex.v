(** A generic leftmost-first ("Perl-like") regular expression matcher with
    capture groups.  Go's regexp package guarantees that [FindStringSubmatch]
    returns the match a backtracking engine would have found first; this file
    is that backtracking engine.  Simplification: an iteration of a starred
    expression that consumes nothing is cut off (none of the repository's
    expressions has a nullable body under a star).
    None of the definitions in this file has lines in /repo of its own. *)
From Coq Require Import String List NArith Bool Lia Arith.
From Verif Require Import Base.
Import ListNotations.

Inductive re : Type :=
| Eps
| Chr (p : rune -> bool)
| Cat (a b : re)
| Alt (a b : re)                 (* tries [a] first *)
| Star (greedy : bool) (a : re)
| Grp (n : nat) (a : re)
| Bot                            (* \A, and ^ without the m flag *)
| Eot.                           (* \z *)

Definition caps := list (nat * gostring).
Fixpoint cap (c : caps) (n : nat) : option gostring :=
  match c with
  | [] => None
  | (m, s) :: c' => if Nat.eqb n m then Some s else cap c' n
  end.
(** Go's submatch string: unset groups are the empty string. *)
Definition capd (c : caps) (n : nat) : gostring :=
  match cap c n with Some s => s | None => [] end.

Definition orelse {A} (x y : option A) : option A :=
  match x with Some _ => x | None => y end.

Section Matcher.
  Context {R : Type}.
  Definition kont := nat -> gostring -> caps -> option R.

  (** [mt r i s c k]: match [r] at offset [i] with remaining input [s] and
      captures [c], then continue with [k]; alternatives in priority order. *)
  Fixpoint mt (r : re) (i : nat) (s : gostring) (c : caps) (k : kont) {struct r} : option R :=
    match r with
    | Eps => k i s c
    | Chr p => match s with
               | [] => None
               | x :: s' => if p x then k (S i) s' c else None
               end
    | Cat a b => mt a i s c (fun i' s' c' => mt b i' s' c' k)
    | Alt a b => orelse (mt a i s c k) (mt b i s c k)
    | Grp n a => mt a i s c (fun i' s' c' => k i' s' ((n, firstn (i' - i) s) :: c'))
    | Bot => if Nat.eqb i 0 then k i s c else None
    | Eot => match s with [] => k i s c | _ => None end
    | Star g a =>
        (fix loop (f : nat) (i : nat) (s : gostring) (c : caps) {struct f} : option R :=
           match f with
           | 0 => None
           | S f' =>
               let more := mt a i s c (fun i' s' c' =>
                             if Nat.leb i' i then None else loop f' i' s' c') in
               let stop := k i s c in
               if g then orelse more stop else orelse stop more
           end) (S (length s)) i s c
    end.

  Definition star_loop (g : bool) (a : re) (k : kont) :=
    (fix loop (f : nat) (i : nat) (s : gostring) (c : caps) {struct f} : option R :=
           match f with
           | 0 => None
           | S f' =>
               let more := mt a i s c (fun i' s' c' =>
                             if Nat.leb i' i then None else loop f' i' s' c') in
               let stop := k i s c in
               if g then orelse more stop else orelse stop more
           end).

  Lemma star_loop_eq : forall g a k i s c,
      mt (Star g a) i s c k = star_loop g a k (S (length s)) i s c.
  Proof. reflexivity. Qed.

  Lemma mt_eps : forall i s c k, mt Eps i s c k = k i s c.
  Proof. reflexivity. Qed.
  Lemma mt_chr_nil : forall p i c k, mt (Chr p) i [] c k = None.
  Proof. reflexivity. Qed.
  Lemma mt_chr_cons : forall p i x s c k,
      mt (Chr p) i (x :: s) c k = if p x then k (S i) s c else None.
  Proof. reflexivity. Qed.
  Lemma mt_cat : forall a b i s c k,
      mt (Cat a b) i s c k = mt a i s c (fun i' s' c' => mt b i' s' c' k).
  Proof. reflexivity. Qed.
  Lemma mt_alt : forall a b i s c k,
      mt (Alt a b) i s c k = orelse (mt a i s c k) (mt b i s c k).
  Proof. reflexivity. Qed.
  Lemma mt_grp : forall n a i s c k,
      mt (Grp n a) i s c k = mt a i s c (fun i' s' c' => k i' s' ((n, firstn (i' - i) s) :: c')).
  Proof. reflexivity. Qed.

  (** Only the continuation's values at reachable positions matter. *)
  Lemma mt_ext : forall r i s c (k1 k2 : kont),
      (forall i' s' c', i <= i' -> i + length s = i' + length s' ->
                        k1 i' s' c' = k2 i' s' c') ->
      mt r i s c k1 = mt r i s c k2.
  Proof.
    induction r; intros i s c k1 k2 H; simpl.
    - apply H; lia.
    - destruct s as [|x s]; auto. destruct (p x); auto. apply H; simpl; lia.
    - apply IHr1. intros. apply IHr2. intros. apply H; lia.
    - erewrite IHr1, IHr2; eauto.
    - change (star_loop greedy r k1 (S (length s)) i s c
              = star_loop greedy r k2 (S (length s)) i s c).
      assert (HG : forall f i0 s0 c0, i <= i0 -> i + length s = i0 + length s0 ->
                 star_loop greedy r k1 f i0 s0 c0 = star_loop greedy r k2 f i0 s0 c0).
      { induction f; intros; simpl; auto.
        rewrite (H i0 s0 c0) by auto.
        erewrite IHr with (k2 := fun i' s' c' =>
           if i' <=? i0 then None else star_loop greedy r k2 f i' s' c').
        2:{ intros. simpl. destruct (i' <=? i0); auto. fold (star_loop greedy r k1).
            apply IHf; lia. }
        reflexivity. }
      apply HG; lia.
    - apply IHr. intros. apply H; auto.
    - destruct (Nat.eqb i 0); auto.
    - destruct s; auto.
  Qed.

  Lemma star_loop_fuel : forall g a k f1 f2 i s c,
      length s < f1 -> length s < f2 ->
      star_loop g a k f1 i s c = star_loop g a k f2 i s c.
  Proof.
    induction f1; intros f2 i s c H1 H2; [lia|].
    destruct f2; [lia|]. simpl.
    rewrite mt_ext with (k2 := fun i' s' c' =>
           if i' <=? i then None else star_loop g a k f2 i' s' c').
    2:{ intros. simpl. destruct (i' <=? i) eqn:E; auto.
        apply Nat.leb_gt in E. fold (star_loop g a k). apply IHf1; lia. }
    reflexivity.
  Qed.

  (** The defining equation of repetition. *)
  Lemma star_unfold : forall g a i s c k,
      mt (Star g a) i s c k =
      let more := mt a i s c (fun i' s' c' =>
                     if Nat.leb i' i then None else mt (Star g a) i' s' c' k) in
      let stop := k i s c in
      if g then orelse more stop else orelse stop more.
  Proof.
    intros. rewrite star_loop_eq. cbn [star_loop].
    fold (star_loop g a k).
    rewrite mt_ext with (k2 := fun i' s' c' =>
           if i' <=? i then None else mt (Star g a) i' s' c' k).
    - reflexivity.
    - intros. cbn beta. destruct (i' <=? i) eqn:E; auto.
      apply Nat.leb_gt in E. rewrite star_loop_eq. apply star_loop_fuel; lia.
  Qed.

  (** Repetition of a single character class. *)
  Fixpoint greedy_run (p : rune -> bool) (i : nat) (s : gostring) (c : caps) (k : kont) : option R :=
    match s with
    | x :: s' => if p x then orelse (greedy_run p (S i) s' c k) (k i s c) else k i s c
    | [] => k i s c
    end.
  Fixpoint lazy_run (p : rune -> bool) (i : nat) (s : gostring) (c : caps) (k : kont) : option R :=
    orelse (k i s c)
           (match s with
            | x :: s' => if p x then lazy_run p (S i) s' c k else None
            | [] => None
            end).

  Lemma star_chr_greedy : forall p s i c k,
      mt (Star true (Chr p)) i s c k = greedy_run p i s c k.
  Proof.
    induction s as [|x s IH]; intros; rewrite star_unfold; cbv zeta; [reflexivity|].
    rewrite mt_chr_cons. cbn [greedy_run]. destruct (p x); auto.
    assert (E : (S i <=? i) = false) by (apply Nat.leb_gt; lia).
    rewrite E, IH. reflexivity.
  Qed.
  Lemma star_chr_lazy : forall p s i c k,
      mt (Star false (Chr p)) i s c k = lazy_run p i s c k.
  Proof.
    induction s as [|x s IH]; intros; rewrite star_unfold; cbv zeta; [reflexivity|].
    rewrite mt_chr_cons. cbn [lazy_run]. destruct (p x); auto.
    assert (E : (S i <=? i) = false) by (apply Nat.leb_gt; lia).
    rewrite E, IH. reflexivity.
  Qed.

  (** Taking the longest run succeeds. *)
  Lemma greedy_run_longest : forall p w rest i c k x,
      forallb p w = true ->
      (match rest with [] => True | y :: _ => p y = false end) ->
      k (i + length w) rest c = Some x ->
      greedy_run p i (w ++ rest) c k = Some x.
  Proof.
    induction w as [|y w IH]; simpl; intros rest i c k x Hw Hr Hk.
    - rewrite Nat.add_0_r in Hk. destruct rest as [|z rest]; auto. simpl. now rewrite Hr.
    - apply andb_true_iff in Hw. destruct Hw as [Hy Hw]. rewrite Hy.
      rewrite IH with (x := x); auto. now rewrite Nat.add_succ_comm.
  Qed.

  (** The continuation fails at every shorter run. *)
  Lemma lazy_run_first : forall p w rest i c k x,
      forallb p w = true ->
      (forall w1 w2, w = w1 ++ w2 -> w2 <> [] -> k (i + length w1) (w2 ++ rest) c = None) ->
      k (i + length w) rest c = Some x ->
      lazy_run p i (w ++ rest) c k = Some x.
  Proof.
    induction w as [|y w IH]; simpl; intros rest i c k x Hw Hf Hk.
    - rewrite Nat.add_0_r in Hk. destruct rest; simpl; now rewrite Hk.
    - apply andb_true_iff in Hw. destruct Hw as [Hy Hw].
      pose proof (Hf [] (y :: w) eq_refl ltac:(congruence)) as H0.
      simpl in H0. rewrite Nat.add_0_r in H0. rewrite H0. simpl. rewrite Hy.
      apply IH; auto.
      + intros. specialize (Hf (y :: w1) w2). simpl in Hf.
        rewrite Nat.add_succ_comm. apply Hf; auto. now rewrite H.
      + now rewrite Nat.add_succ_comm.
  Qed.

  Lemma lazy_run_none : forall p s i c k,
      (forall w r, s = w ++ r -> forallb p w = true -> k (i + length w) r c = None) ->
      lazy_run p i s c k = None.
  Proof.
    induction s as [|x s IH]; simpl; intros i c k H.
    - pose proof (H [] [] eq_refl eq_refl) as H0. simpl in H0.
      rewrite Nat.add_0_r in H0. now rewrite H0.
    - pose proof (H [] (x :: s) eq_refl eq_refl) as H0. simpl in H0.
      rewrite Nat.add_0_r in H0. rewrite H0. simpl.
      destruct (p x) eqn:E; auto. apply IH. intros w r -> Hw.
      specialize (H (x :: w) r eq_refl). simpl in H. rewrite E, Hw in H.
      rewrite Nat.add_succ_comm. auto.
  Qed.

  Lemma greedy_run_none : forall p s i c k,
      (forall w r, s = w ++ r -> forallb p w = true -> k (i + length w) r c = None) ->
      greedy_run p i s c k = None.
  Proof.
    induction s as [|x s IH]; simpl; intros i c k H.
    - pose proof (H [] [] eq_refl eq_refl) as H0. simpl in H0.
      now rewrite Nat.add_0_r in H0.
    - pose proof (H [] (x :: s) eq_refl eq_refl) as H0. simpl in H0.
      rewrite Nat.add_0_r in H0. rewrite H0.
      destruct (p x) eqn:E; auto. rewrite IH; auto. intros w r -> Hw.
      specialize (H (x :: w) r eq_refl). simpl in H. rewrite E, Hw in H.
      rewrite Nat.add_succ_comm. auto.
  Qed.
End Matcher.

(** ** Declarative semantics, and agreement of the matcher with it. *)
Inductive M : re -> nat -> gostring -> caps -> nat -> gostring -> caps -> Prop :=
| M_Eps : forall i s c, M Eps i s c i s c
| M_Chr : forall p i x s c, p x = true -> M (Chr p) i (x :: s) c (S i) s c
| M_Cat : forall a b i s c i1 s1 c1 i2 s2 c2,
    M a i s c i1 s1 c1 -> M b i1 s1 c1 i2 s2 c2 -> M (Cat a b) i s c i2 s2 c2
| M_AltL : forall a b i s c i1 s1 c1, M a i s c i1 s1 c1 -> M (Alt a b) i s c i1 s1 c1
| M_AltR : forall a b i s c i1 s1 c1, M b i s c i1 s1 c1 -> M (Alt a b) i s c i1 s1 c1
| M_Grp : forall n a i s c i1 s1 c1,
    M a i s c i1 s1 c1 -> M (Grp n a) i s c i1 s1 ((n, firstn (i1 - i) s) :: c1)
| M_Bot : forall s c, M Bot 0 s c 0 s c
| M_Eot : forall i c, M Eot i [] c i [] c
| M_Stop : forall g a i s c, M (Star g a) i s c i s c
| M_More : forall g a i s c i1 s1 c1 i2 s2 c2,
    M a i s c i1 s1 c1 -> i < i1 -> M (Star g a) i1 s1 c1 i2 s2 c2 ->
    M (Star g a) i s c i2 s2 c2.

Lemma M_consumes : forall r i s c i' s' c',
    M r i s c i' s' c' -> exists w, s = w ++ s' /\ i' = i + length w.
Proof.
  induction 1; try (exists []; simpl; split; auto; lia).
  - exists [x]; simpl; split; auto; lia.
  - destruct IHM1 as (w1 & -> & ->), IHM2 as (w2 & -> & ->).
    exists (w1 ++ w2). rewrite app_assoc, app_length. split; auto; lia.
  - auto.
  - auto.
  - auto.
  - destruct IHM1 as (w1 & -> & ->), IHM2 as (w2 & -> & ->).
    exists (w1 ++ w2). rewrite app_assoc, app_length. split; auto; lia.
Qed.

Theorem mt_sound : forall R r i s c (k : @kont R) x,
    mt r i s c k = Some x ->
    exists i' s' c', M r i s c i' s' c' /\ k i' s' c' = Some x.
Proof.
  intros R. induction r; intros i s c k x H.
  - simpl in H. eexists _, _, _; split; [constructor|]; eauto.
  - simpl in H. destruct s as [|y s]; [congruence|]. destruct (p y) eqn:E; [|congruence].
    eexists _, _, _; split; [constructor|]; eauto.
  - simpl in H. apply IHr1 in H. destruct H as (i1 & s1 & c1 & H1 & H2).
    apply IHr2 in H2. destruct H2 as (i2 & s2 & c2 & H2 & H3).
    eexists _, _, _; split; [econstructor|]; eauto.
  - simpl in H. unfold orelse in H. destruct (mt r1 i s c k) eqn:E.
    + inversion H; subst. apply IHr1 in E. destruct E as (i1 & s1 & c1 & H1 & H2).
      eexists _, _, _; split; [apply M_AltL|]; eauto.
    + apply IHr2 in H. destruct H as (i1 & s1 & c1 & H1 & H2).
      eexists _, _, _; split; [apply M_AltR|]; eauto.
  - rewrite star_loop_eq in H. revert H. generalize (S (length s)) as f. intros f.
    revert i s c. induction f; intros i s c H; simpl in H; [congruence|].
    fold (@star_loop R greedy r k) in H.
    assert (HH : mt r i s c (fun i' s' c' => if i' <=? i then None
                        else star_loop greedy r k f i' s' c') = Some x
                 \/ k i s c = Some x).
    { destruct greedy; unfold orelse in H.
      - destruct (mt r i s c _); auto.
      - destruct (k i s c); auto. }
    destruct HH as [HH|HH].
    + apply IHr in HH. destruct HH as (i1 & s1 & c1 & H1 & H2).
      destruct (i1 <=? i) eqn:E; [congruence|]. apply Nat.leb_gt in E.
      apply IHf in H2. destruct H2 as (i2 & s2 & c2 & H2 & H3).
      exists i2, s2, c2. split; auto. econstructor; eauto.
    + eexists _, _, _; split; [constructor|]; eauto.
  - simpl in H. apply IHr in H. destruct H as (i1 & s1 & c1 & H1 & H2).
    eexists _, _, _; split; [econstructor|]; eauto.
  - simpl in H. destruct (Nat.eqb_spec i 0); [subst|congruence].
    eexists _, _, _; split; [constructor|]; eauto.
  - simpl in H. destruct s; [|congruence].
    eexists _, _, _; split; [constructor|]; eauto.
Qed.

Theorem mt_complete : forall R r i s c i' s' c',
    M r i s c i' s' c' -> forall (k : @kont R), k i' s' c' <> None -> mt r i s c k <> None.
Proof.
  intros R r i s c i' s' c' H. induction H; intros k Hk.
  - exact Hk.
  - simpl. now rewrite H.
  - simpl. apply IHM1. apply IHM2. exact Hk.
  - simpl. specialize (IHM _ Hk). destruct (mt a i s c k); simpl; congruence.
  - simpl. specialize (IHM _ Hk). destruct (mt a i s c k); simpl; congruence.
  - simpl. apply IHM. exact Hk.
  - simpl. exact Hk.
  - simpl. exact Hk.
  - rewrite star_unfold. cbv zeta. destruct g; unfold orelse.
    + destruct (mt a i s c _); congruence.
    + destruct (k i s c); congruence.
  - rewrite star_unfold. cbv zeta.
    assert (HH : mt a i s c (fun i' s' c' => if i' <=? i then None
                        else mt (Star g a) i' s' c' k) <> None).
    { apply IHM1. apply Nat.leb_gt in H0. rewrite H0. apply IHM2. exact Hk. }
    destruct g; unfold orelse.
    + destruct (mt a i s c _); congruence.
    + destruct (k i s c); [congruence|exact HH].
Qed.

(** ** Searching *)

(** Where the match starts and what it consumed. *)
Record match_result := { m_start : nat; m_text : gostring; m_caps : caps; m_rest : gostring }.

Definition match_at (r : re) (i : nat) (s : gostring) : option match_result :=
  mt r i s [] (fun i' s' c => Some {| m_start := i; m_text := firstn (i' - i) s;
                                      m_caps := c; m_rest := s' |}).

Fixpoint find_from (r : re) (i : nat) (s : gostring) : option match_result :=
  match match_at r i s with
  | Some x => Some x
  | None => match s with
            | [] => None
            | _ :: s' => find_from r (S i) s'
            end
  end.

(** Regexp.FindStringSubmatch (leftmost-first). *)
Definition find (r : re) (s : gostring) : option match_result := find_from r 0 s.
(** Regexp.MatchString. *)
Definition match_string (r : re) (s : gostring) : bool :=
  match find r s with Some _ => true | None => false end.

(** A match exists somewhere. *)
Definition matches_somewhere (r : re) (s : gostring) : Prop :=
  exists w s1 i' s' c', s = w ++ s1 /\ M r (length w) s1 [] i' s' c'.

Lemma match_at_iff : forall r i s,
    match_at r i s <> None <-> exists i' s' c', M r i s [] i' s' c'.
Proof.
  intros. unfold match_at. split.
  - intros H. destruct (mt r i s [] _) eqn:E; [|congruence].
    apply mt_sound in E. destruct E as (i' & s' & c' & H1 & _). eauto.
  - intros (i' & s' & c' & H). eapply mt_complete; eauto. simpl; congruence.
Qed.

Lemma find_from_iff : forall r s i,
    find_from r i s <> None <->
    exists w s1 i' s' c', s = w ++ s1 /\ M r (i + length w) s1 [] i' s' c'.
Proof.
  induction s as [|x s IH]; intros i.
  - simpl. destruct (match_at r i []) eqn:E.
    + split; [|congruence]. intros _.
      assert (H : match_at r i [] <> None) by congruence.
      apply match_at_iff in H. destruct H as (i' & s' & c' & H).
      exists [], [], i', s', c'. simpl. rewrite Nat.add_0_r. auto.
    + split; [congruence|]. intros (w & s1 & i' & s' & c' & H1 & H2).
      symmetry in H1. apply app_eq_nil in H1. destruct H1; subst. simpl in H2.
      rewrite Nat.add_0_r in H2.
      assert (H : match_at r i [] <> None) by (apply match_at_iff; eauto). congruence.
  - simpl. destruct (match_at r i (x :: s)) eqn:E.
    + split; [|congruence]. intros _.
      assert (H : match_at r i (x :: s) <> None) by congruence.
      apply match_at_iff in H. destruct H as (i' & s' & c' & H).
      exists [], (x :: s), i', s', c'. simpl. rewrite Nat.add_0_r. auto.
    + rewrite IH. split.
      * intros (w & s1 & i' & s' & c' & -> & H2).
        exists (x :: w), s1, i', s', c'. simpl. rewrite Nat.add_succ_comm in H2. auto.
      * intros (w & s1 & i' & s' & c' & H1 & H2).
        destruct w as [|y w].
        -- simpl in *. subst. rewrite Nat.add_0_r in H2.
           assert (H : match_at r i (x :: s) <> None) by (apply match_at_iff; eauto).
           congruence.
        -- simpl in H1. inversion H1; subst.
           exists w, s1, i', s', c'. simpl in H2. rewrite Nat.add_succ_comm. auto.
Qed.

Theorem match_string_iff : forall r s, match_string r s = true <-> matches_somewhere r s.
Proof.
  intros. unfold match_string, matches_somewhere, find.
  pose proof (find_from_iff r s 0) as H. simpl in H.
  rewrite <- H. destruct (find_from r 0 s); split; congruence.
Qed.

(** Leftmost: the first offset at which a match exists. *)
Lemma find_from_skip : forall r w s i x,
    (forall w1 w2, w = w1 ++ w2 -> w2 <> [] -> match_at r (i + length w1) (w2 ++ s) = None) ->
    match_at r (i + length w) s = Some x ->
    find_from r i (w ++ s) = Some x.
Proof.
  induction w as [|y w IH]; simpl; intros s i x H1 H2.
  - rewrite Nat.add_0_r in H2. destruct s; simpl; now rewrite H2.
  - pose proof (H1 [] (y :: w) eq_refl ltac:(congruence)) as H0. simpl in H0.
    rewrite Nat.add_0_r in H0. rewrite H0. apply IH.
    + intros w1 w2 -> Hne. specialize (H1 (y :: w1) w2 eq_refl Hne). simpl in H1.
      now rewrite Nat.add_succ_comm.
    + now rewrite Nat.add_succ_comm.
Qed.

Lemma find_from_none : forall r s i,
    (forall w s1, s = w ++ s1 -> match_at r (i + length w) s1 = None) ->
    find_from r i s = None.
Proof.
  induction s as [|x s IH]; intros i H.
  - simpl. specialize (H [] [] eq_refl). simpl in H. rewrite Nat.add_0_r in H. now rewrite H.
  - simpl. pose proof (H [] (x :: s) eq_refl) as H0. simpl in H0. rewrite Nat.add_0_r in H0.
    rewrite H0. apply IH. intros w s1 ->. specialize (H (x :: w) s1 eq_refl). simpl in H.
    now rewrite Nat.add_succ_comm.
Qed.

(** Regexp.ReplaceAllString with a literal replacement, for expressions that
    never match the empty string. *)
Fixpoint replace_all_fuel (f : nat) (r : re) (rep : gostring) (i : nat) (s : gostring) : gostring :=
  match f with
  | 0 => s
  | S f' =>
      match s with
      | [] => []
      | x :: s' =>
          match match_at r i s with
          | Some m => match m_text m with
                      | [] => x :: replace_all_fuel f' r rep (S i) s'
                      | _ => rep ++ replace_all_fuel f' r rep (i + length (m_text m)) (m_rest m)
                      end
          | None => x :: replace_all_fuel f' r rep (S i) s'
          end
      end
  end.
Definition replace_all (r : re) (rep : gostring) (s : gostring) : gostring :=
  replace_all_fuel (length s) r rep 0 s.

(** ** Abbreviations used to transcribe expressions. *)
Definition ch (x : rune) : re := Chr (N.eqb x).
Arguments ch x%N.
Definition plus (g : bool) (a : re) : re := Cat a (Star g a).
(** [a?] *)
Definition opt (a : re) : re := Alt a Eps.
Fixpoint str (s : gostring) : re :=
  match s with
  | [] => Eps
  | [x] => ch x
  | x :: s' => Cat (ch x) (str s')
  end.
Fixpoint cats (l : list re) : re :=
  match l with
  | [] => Eps
  | [a] => a
  | a :: l' => Cat a (cats l')
  end.
Definition word := Chr is_word.
Definition digit := Chr is_digit.
Definition space := Chr is_space.
Definition dot := Chr is_dot.
(** [[\d.]] *)
Definition is_num (c : rune) : bool := (is_digit c || N.eqb c 46)%bool.
Definition num := Chr is_num.

Lemma mt_ch : forall R x y i s c (k : @kont R),
    mt (ch x) i (y :: s) c k = if N.eqb x y then k (S i) s c else None.
Proof. reflexivity. Qed.

Fixpoint prefix_of (p s : gostring) : option gostring :=
  match p, s with
  | [], _ => Some s
  | _ :: _, [] => None
  | x :: p', y :: s' => if N.eqb x y then prefix_of p' s' else None
  end.

(** Matching a literal. *)
Lemma mt_str : forall R p i s c (k : @kont R),
    mt (str p) i s c k = match prefix_of p s with
                         | Some s' => k (i + length p) s' c
                         | None => None
                         end.
Proof.
  induction p as [|x p IH]; intros.
  - simpl. now rewrite Nat.add_0_r.
  - destruct p as [|y p].
    + simpl. destruct s as [|r s]; auto. destruct (N.eqb x r); auto. f_equal. lia.
    + change (str (x :: y :: p)) with (Cat (ch x) (str (y :: p))).
      cbn [mt ch]. destruct s as [|z s]; auto. cbn [prefix_of].
      destruct (N.eqb x z); auto. rewrite IH.
      cbn [prefix_of]. destruct s as [|w s]; auto.
      destruct (N.eqb y w); auto. destruct (prefix_of p s); auto.
      f_equal. simpl; lia.
Qed.

Lemma prefix_of_app : forall p s, prefix_of p (p ++ s) = Some s.
Proof. induction p; simpl; intros; auto. now rewrite N.eqb_refl. Qed.
Lemma prefix_of_some : forall p s s', prefix_of p s = Some s' -> s = p ++ s'.
Proof.
  induction p as [|x p IH]; simpl; intros s s' H; [congruence|].
  destruct s as [|y s]; [congruence|]. destruct (N.eqb_spec x y); [|congruence].
  subst. f_equal; auto.
Qed.
