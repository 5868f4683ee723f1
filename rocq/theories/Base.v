(** Basic notions shared by all parts of the model: Go strings, characters,
    string helpers of the Go standard library, string-keyed maps, outcomes.
    None of the definitions in this file has lines in /repo of its own. *)
From Coq Require Import Ascii String List NArith ZArith Bool Lia Permutation Arith.
Import ListNotations.

(** A Go string is modelled as the list of its Unicode code points.
    Simplification: strings that are not valid UTF-8 are outside the model. *)
Notation rune := N (only parsing).
Notation gostring := (list N).

Fixpoint of_string (s : string) : gostring :=
  match s with
  | EmptyString => []
  | String a s' => N_of_ascii a :: of_string s'
  end.
Notation "'lit' x" := (of_string x%string) (at level 9, x at level 0).

Definition runes_eq_dec : forall a b : gostring, {a = b} + {a <> b} :=
  list_eq_dec N.eq_dec.
Definition seqb (a b : gostring) : bool :=
  if runes_eq_dec a b then true else false.

Lemma seqb_eq : forall a b, seqb a b = true <-> a = b.
Proof. intros; unfold seqb; destruct (runes_eq_dec a b); split; congruence. Qed.
Lemma seqb_refl : forall a, seqb a a = true.
Proof. intros; apply seqb_eq; reflexivity. Qed.
Lemma seqb_neq : forall a b, seqb a b = false <-> a <> b.
Proof. intros; unfold seqb; destruct (runes_eq_dec a b); split; congruence. Qed.
Lemma seqb_sym : forall a b, seqb a b = seqb b a.
Proof.
  intros; unfold seqb; destruct (runes_eq_dec a b), (runes_eq_dec b a); congruence.
Qed.
Lemma seqb_spec : forall a b, reflect (a = b) (seqb a b).
Proof. intros; unfold seqb; destruct (runes_eq_dec a b); constructor; auto. Qed.

(** Go's [<] on strings compares bytes; UTF-8 keeps code point order, so this is
    the lexicographic order on code points. *)
Fixpoint sltb (a b : gostring) : bool :=
  match a, b with
  | [], [] => false
  | [], _ :: _ => true
  | _ :: _, [] => false
  | x :: a', y :: b' => if N.eqb x y then sltb a' b' else N.ltb x y
  end.

Lemma sltb_irrefl : forall a, sltb a a = false.
Proof. induction a; simpl; auto. rewrite N.eqb_refl; auto. Qed.

Lemma sltb_trans : forall a b c, sltb a b = true -> sltb b c = true -> sltb a c = true.
Proof.
  induction a as [|x a IH]; intros [|y b] [|z c]; simpl; intros H1 H2; try congruence.
  destruct (N.eqb_spec x y) as [->|Hxy].
  - destruct (N.eqb_spec y z) as [->|Hyz]; eauto.
  - apply N.ltb_lt in H1.
    destruct (N.eqb_spec y z) as [->|Hyz].
    + destruct (N.eqb_spec x z); [lia|]. now apply N.ltb_lt.
    + apply N.ltb_lt in H2. destruct (N.eqb_spec x z); [lia|]. apply N.ltb_lt; lia.
Qed.

Lemma sltb_total : forall a b, sltb a b = false -> sltb b a = false -> a = b.
Proof.
  induction a as [|x a IH]; intros [|y b]; simpl; intros H1 H2; try congruence.
  destruct (N.eqb_spec x y) as [->|Hxy].
  - rewrite N.eqb_refl in H2. f_equal; auto.
  - destruct (N.eqb_spec y x); [congruence|].
    apply N.ltb_ge in H1, H2. lia.
Qed.

Lemma sltb_asym : forall a b, sltb a b = true -> sltb b a = false.
Proof.
  intros a b H. destruct (sltb b a) eqn:E; auto.
  pose proof (sltb_trans _ _ _ H E). now rewrite sltb_irrefl in H0.
Qed.

(** Character classes as Go's regexp defines them: ASCII only. *)
Definition is_digit (c : rune) : bool := (N.leb 48 c && N.leb c 57)%bool.
Definition is_upper (c : rune) : bool := (N.leb 65 c && N.leb c 90)%bool.
Definition is_lower (c : rune) : bool := (N.leb 97 c && N.leb c 122)%bool.
Definition is_word (c : rune) : bool :=
  (is_digit c || is_upper c || is_lower c || N.eqb c 95)%bool.
(** [\s] = [\t\n\f\r ]. *)
Definition is_space (c : rune) : bool :=
  (N.eqb c 9 || N.eqb c 10 || N.eqb c 12 || N.eqb c 13 || N.eqb c 32)%bool.
(** [.] without the [s] flag. *)
Definition is_dot (c : rune) : bool := negb (N.eqb c 10).

Definition nl : rune := 10%N.

(** Number of bytes of the UTF-8 encoding, i.e. Go's [len]. *)
Definition rune_len (c : rune) : nat :=
  if N.ltb c 128 then 1 else if N.ltb c 2048 then 2 else if N.ltb c 65536 then 3 else 4.
Fixpoint byte_len (s : gostring) : nat :=
  match s with [] => 0 | c :: s' => rune_len c + byte_len s' end.

(** strings.Split with a one-rune separator. Never returns the empty list. *)
Fixpoint split (sep : rune) (s : gostring) : list gostring :=
  match s with
  | [] => [[]]
  | c :: s' =>
      if N.eqb c sep then [] :: split sep s'
      else match split sep s' with
           | [] => [[c]]
           | h :: t => (c :: h) :: t
           end
  end.

Arguments split sep%N s.

(** strings.Join. *)
Fixpoint join (sep : gostring) (l : list gostring) : gostring :=
  match l with
  | [] => []
  | [x] => x
  | x :: l' => x ++ sep ++ join sep l'
  end.

Lemma split_nonempty : forall sep s, split sep s <> [].
Proof.
  induction s; simpl; [congruence|]. destruct (N.eqb a sep); [congruence|].
  destruct (split sep s); congruence.
Qed.

Lemma join_split : forall sep s, join [sep] (split sep s) = s.
Proof.
  induction s as [|c s IH]; simpl; auto.
  pose proof (split_nonempty sep s) as Hne.
  destruct (N.eqb_spec c sep) as [->|H].
  - simpl. destruct (split sep s); [congruence|]. now rewrite IH.
  - destruct (split sep s) as [|h t]; [congruence|].
    simpl in *. destruct t; simpl in *; congruence.
Qed.

Lemma split_none : forall sep s, ~ In sep s -> split sep s = [s].
Proof.
  induction s as [|c s IH]; simpl; auto. intros H.
  destruct (N.eqb_spec c sep) as [->|Hc]; [tauto|].
  rewrite IH; auto.
Qed.

Lemma split_app : forall sep a b, ~ In sep a -> split sep (a ++ sep :: b) = a :: split sep b.
Proof.
  induction a as [|c a IH]; simpl; intros b H.
  - now rewrite N.eqb_refl.
  - destruct (N.eqb_spec c sep) as [->|Hc]; [tauto|].
    rewrite IH; auto.
Qed.

Lemma split_join : forall sep l, l <> [] -> Forall (fun x => ~ In sep x) l ->
  split sep (join [sep] l) = l.
Proof.
  induction l as [|x l IH]; intros Hne HF; [congruence|].
  inversion HF; subst. destruct l as [|y l].
  - simpl. now apply split_none.
  - change (join [sep] (x :: y :: l)) with (x ++ [sep] ++ join [sep] (y :: l)).
    simpl app. rewrite split_app; auto. f_equal. apply IH; [congruence|auto].
Qed.

Lemma split_no_sep : forall sep s, Forall (fun x => ~ In sep x) (split sep s).
Proof.
  induction s as [|c s IH]; simpl.
  - constructor; auto.
  - destruct (N.eqb_spec c sep) as [->|H].
    + constructor; auto.
    + destruct (split sep s) as [|h t]; inversion IH; subst; constructor; auto.
      * simpl; intros [?|[]]; auto.
      * simpl. intros [?|?]; auto.
Qed.

Lemma split_In : forall sep s x c, In x (split sep s) -> In c x -> In c s.
Proof.
  induction s as [|a s IH]; simpl; intros x c Hx Hc.
  - destruct Hx as [<-|[]]; auto.
  - destruct (N.eqb_spec a sep) as [->|H].
    + destruct Hx as [<-|Hx]; [destruct Hc|]. right; eauto.
    + destruct (split sep s) as [|h t] eqn:E.
      * destruct Hx as [<-|[]]. destruct Hc as [->|[]]; auto.
      * destruct Hx as [<-|Hx].
        -- destruct Hc as [->|Hc]; auto. right. eapply IH; eauto. left; reflexivity.
        -- right. eapply IH; eauto. right; auto.
Qed.

(** ** String-keyed maps as association lists (the head binding counts). *)
Section Maps.
  Context {A : Type}.
  Definition smap := list (gostring * A).
  Fixpoint mget (m : smap) (k : gostring) : option A :=
    match m with
    | [] => None
    | (k', v) :: m' => if seqb k k' then Some v else mget m' k
    end.
  (** Assignment [m[k] = v]: replaces in place, or appends a new key. *)
  Fixpoint mset (m : smap) (k : gostring) (v : A) : smap :=
    match m with
    | [] => [(k, v)]
    | (k', v') :: m' => if seqb k k' then (k', v) :: m' else (k', v') :: mset m' k v
    end.
  Fixpoint mdel (m : smap) (k : gostring) : smap :=
    match m with
    | [] => []
    | (k', v') :: m' => if seqb k k' then mdel m' k else (k', v') :: mdel m' k
    end.
  Definition keys (m : smap) : list gostring := map fst m.

  Lemma mget_mset_same : forall m k v, mget (mset m k v) k = Some v.
  Proof.
    induction m as [|[k' v'] m IH]; simpl; intros.
    - now rewrite seqb_refl.
    - destruct (seqb k k') eqn:E; simpl; rewrite E; auto.
  Qed.
  Lemma mget_mset_other : forall m k v k', k' <> k -> mget (mset m k v) k' = mget m k'.
  Proof.
    induction m as [|[k0 v0] m IH]; simpl; intros.
    - apply seqb_neq in H. now rewrite H.
    - destruct (seqb_spec k k0).
      + subst. simpl. apply seqb_neq in H. now rewrite H.
      + simpl. destruct (seqb k' k0); auto.
  Qed.
  Lemma mget_mset : forall m k v k',
      mget (mset m k v) k' = if seqb k' k then Some v else mget m k'.
  Proof.
    intros. destruct (seqb_spec k' k).
    - subst. apply mget_mset_same.
    - now apply mget_mset_other.
  Qed.
  Lemma mget_In : forall m k v, mget m k = Some v -> In (k, v) m.
  Proof.
    induction m as [|[k0 v0] m IH]; simpl; intros; [congruence|].
    destruct (seqb_spec k k0).
    - subst. left; congruence.
    - right; auto.
  Qed.
  Lemma mget_None : forall m k, mget m k = None <-> ~ In k (keys m).
  Proof.
    induction m as [|[k0 v0] m IH]; simpl; intros; [tauto|].
    destruct (seqb_spec k k0).
    - subst. split; [congruence|]. intros H; elim H; auto.
    - rewrite IH. split.
      + intros H [H1|H1]; [congruence|tauto].
      + tauto.
  Qed.
  Lemma In_mget : forall m k v, NoDup (keys m) -> In (k, v) m -> mget m k = Some v.
  Proof.
    induction m as [|[k0 v0] m IH]; simpl; intros; [tauto|].
    inversion H; subst. destruct H0 as [H0|H0].
    - inversion H0; subst. now rewrite seqb_refl.
    - destruct (seqb_spec k k0).
      + subst. elim H3. apply in_map_iff. exists (k0, v); auto.
      + auto.
  Qed.
  Lemma keys_mset_In : forall m k v k', In k' (keys (mset m k v)) <-> k' = k \/ In k' (keys m).
  Proof.
    induction m as [|[k0 v0] m IH]; simpl; intros.
    - intuition.
    - destruct (seqb_spec k k0); simpl.
      + subst. intuition.
      + rewrite IH. intuition.
  Qed.
  Lemma keys_mset_NoDup : forall m k v, NoDup (keys m) -> NoDup (keys (mset m k v)).
  Proof.
    induction m as [|[k0 v0] m IH]; simpl; intros.
    - constructor; auto.
    - inversion H; subst. destruct (seqb_spec k k0); simpl.
      + constructor; auto.
      + constructor; auto. intros HI. apply keys_mset_In in HI. intuition.
  Qed.
End Maps.
Arguments smap : clear implicits.

(** Result of a Go function that may return an error or panic. *)
Inductive outcome (A : Type) : Type :=
| Ok (a : A)
| Err (msg : gostring)
| Panic.
Arguments Ok {A} a.
Arguments Err {A} msg.
Arguments Panic {A}.

Definition obind {A B} (x : outcome A) (f : A -> outcome B) : outcome B :=
  match x with Ok a => f a | Err m => Err m | Panic => Panic end.
Notation "'do' x <- e ; f" := (obind e (fun x => f))
  (at level 200, x name, e at level 100, f at level 200, right associativity).
Notation "'do' ' p <- e ; f" := (obind e (fun p => f))
  (at level 200, p strict pattern, e at level 100, f at level 200, right associativity).

Lemma is_digit_word : forall c, is_digit c = true -> is_word c = true.
Proof. intros c H; unfold is_word; now rewrite H. Qed.

Lemma forallb_app' : forall {A} (p : A -> bool) l1 l2,
    forallb p (l1 ++ l2) = (forallb p l1 && forallb p l2)%bool.
Proof. intros; apply forallb_app. Qed.

(** A word: what [\A\w+\z] accepts; used as a specification notion. *)
Definition wordb (s : gostring) : bool :=
  match s with [] => false | _ => forallb is_word s end.
