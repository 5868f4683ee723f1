(** Lemmas for C149. *)
From Coq Require Import String List NArith ZArith Bool Lia Arith.
From Verif Require Import Base ChartLife ChartLifeSpec.
Import ListNotations.
Local Open Scope nat_scope.
Local Open Scope list_scope.

Section Lemmas.
  Context {B : Type}.
  Notation js := (@js B).
  Notation heap := (@heap B).

  (** ** Lists *)
  Lemma update_nth : forall A (l : list A) i f m, nth_error (update l i f) m = if Nat.eqb m i then option_map f (nth_error l m) else nth_error l m.
  Proof.
    intros A l. induction l as [|x l IH]; intros i f m.
    - destruct i, m; cbn; try reflexivity. now destruct (Nat.eqb m i).
    - destruct i, m; cbn [update nth_error Nat.eqb]; try reflexivity. apply IH.
  Qed.
  Lemma update_length : forall A (l : list A) i f, length (update l i f) = length l.
  Proof. intros A l. induction l as [|x l IH]; intros [|i] f; cbn; try reflexivity. now rewrite IH. Qed.
  Lemma update_app : forall A (h cs : list A) k f, update (h ++ cs) (k + length h) f = h ++ update cs k f.
  Proof.
    intros A h cs k f. induction h as [|x h IH]; cbn [app length].
    - now rewrite Nat.add_0_r.
    - rewrite Nat.add_succ_r. cbn [update]. now rewrite IH.
  Qed.
  Lemma nth_rel : forall A (h cs : list A) k, nth_error (h ++ cs) (k + length h) = nth_error cs k.
  Proof. intros A h cs k. rewrite nth_error_app2 by lia. f_equal. lia. Qed.
  Lemma nth_ext : forall A (h cs : list A) k x, nth_error h k = Some x -> nth_error (h ++ cs) k = Some x.
  Proof. intros A h cs k x H. rewrite nth_error_app1; [exact H|]. apply nth_error_Some. congruence. Qed.

  (** ** Heaps *)
  Lemma get_rel : forall (h cs : heap) k key, get (h ++ cs) (JRef (k + length h)) key =
    match nth_error cs k with Some c => Ok (match find_member c (lit key) with Some x => x | None => JUndef end) | None => Panic end.
  Proof. intros h cs k key. unfold get. now rewrite nth_rel. Qed.
  Lemma put_rel : forall (h cs : heap) k key x, put (h ++ cs) (JRef (k + length h)) key x =
    match nth_error cs k with Some _ => Ok (h ++ update cs k (fun c => put_member c (lit key) x)) | None => Panic end.
  Proof. intros h cs k key x. unfold put. rewrite nth_rel. now rewrite update_app. Qed.
  Fixpoint walk (h : heap) (v : js) (p : list string) : outcome js :=
    match p with [] => Ok v | key :: p' => do x <- get h v key; walk h x p' end.
  Lemma find_member_is : forall (c : list (gostring * js)) key x, find_member c key = Some x -> member_is c key x.
  Proof.
    intros c key x. unfold find_member. induction c as [|[k v] c IH]; cbn [find fst]; [discriminate|].
    destruct (seqb_spec k key) as [-> | NE].
    - cbn [option_map snd]. intros H. injection H as ->. exists [], c. split; [reflexivity|easy].
    - intros H. destruct (IH H) as (a & z & -> & NI). exists ((k, v) :: a), z. split; [reflexivity|]. cbn [map fst In]. intros [E|E]; [congruence|now apply NI].
  Qed.
  Lemma walk_path : forall p h v x, walk h v p = Ok x -> x <> JUndef -> at_path h v p x.
  Proof.
    induction p as [|key p IH]; intros h v x H N; cbn [walk] in H; [injection H as ->; constructor|].
    destruct (get h v key) as [y| |] eqn:G; cbn [obind] in H; try discriminate.
    assert (y <> JUndef \/ y = JUndef) as [Y|Y] by (destruct y; [left|right|left|left|left]; congruence).
    - unfold get in G. destruct v as [t| |o|i n|b]; try (injection G as <-; congruence); try discriminate.
      destruct (nth_error h o) as [c|] eqn:C; [|discriminate]. destruct (find_member c (lit key)) as [z|] eqn:F; injection G as <-; [|congruence].
      apply ap_member with c z; [exact C|now apply find_member_is|now apply IH].
    - subst y. destruct p; cbn [walk] in H; [injection H as <-; congruence|]. cbn [get obind] in H. discriminate.
  Qed.
  Lemma path_ext : forall (h more : heap) v p x, at_path h v p x -> at_path (h ++ more) v p x.
  Proof. intros h more v p x H. induction H as [v|o c key x p v C M H IH]; [constructor|]. apply ap_member with c x; [now apply nth_ext|exact M|exact IH]. Qed.
  Lemma options_ext : forall (h more : heap) k i b ht t v, options_of h k i b ht t v -> options_of (h ++ more) k i b ht t v.
  Proof.
    intros h more k i b ht t v (A & C & D & E & F & G). split; [now apply path_ext|]. split; [now apply path_ext|]. split; [now apply path_ext|].
    split; [now apply path_ext|]. split; [now apply path_ext|]. destruct k; destruct G as (G1 & G2 & G3 & G4);
      (split; [now apply path_ext|]; split; [now apply path_ext|]; split; now apply path_ext).
  Qed.

  (** ** Copies of the constants *)
  Lemma stringify_ext : forall n (h more : heap) v t, stringify n h v = Some t -> stringify n (h ++ more) v = Some t.
  Proof.
    induction n as [|n IH]; intros h more v t H; destruct v as [x| |o|i m|b]; cbn [stringify] in *; try exact H; try discriminate.
    destruct (nth_error h o) as [c|] eqn:C; [|discriminate]. rewrite (nth_ext _ h more o c C).
    match type of H with option_map _ (?f c) = _ => destruct (f c) as [l|] eqn:E; [|discriminate] end.
    match goal with |- option_map _ (?g c) = _ => assert (g c = Some l) as ->; [|exact H] end.
    clear H C. revert l E. induction c as [|[k x] c IHc]; intros l E; [exact E|].
    destruct x as [y| |o'|i m|b]; try (apply IHc; exact E).
    - match type of E with match ?s with _ => _ end = _ => destruct s as [t'|] eqn:S1; [|discriminate] end.
      rewrite (IH _ more _ _ S1). match type of E with match ?s with _ => _ end = _ => destruct s as [l'|] eqn:S2; [|discriminate] end. rewrite (IHc l' eq_refl). exact E.
    - match type of E with match ?s with _ => _ end = _ => destruct s as [t'|] eqn:S1; [|discriminate] end.
      rewrite (IH _ more _ _ S1). match type of E with match ?s with _ => _ end = _ => destruct s as [l'|] eqn:S2; [|discriminate] end. rewrite (IHc l' eq_refl). exact E.
    - match type of E with match ?s with _ => _ end = _ => destruct s as [t'|] eqn:S1; [|discriminate] end.
      destruct n; cbn [stringify] in S1; discriminate S1.
  Qed.
  Lemma defaults_loaded : forall k, stringify 8 (fst (@loaded B)) (default_ref k) = Some (default_option k).
  Proof. intros []; vm_compute; reflexivity. Qed.

  (** ** A drawing *)
  (** the part of render that makes the options *)
  Definition build (height title : gostring) (k : kind) (i : nat) (bars : B) (t : opt) (h0 : heap) : outcome (heap * js) :=
    let '(h, option) := parse t h0 in
    do h1 <- put h option "series" (JBars bars);
    do h2 <- (if is_plan k
              then do c <- get h1 option "chart"; do h' <- put h1 c "height" (JLit height); put (h' ++ [[(lit "text", JLit title)]]) option "title" (JRef (length h'))
              else Ok h1);
    do h3 <- assign_option_functions k i h2 option;
    Ok (h3, option).
End Lemmas.

(** ** Evaluation with a heap [h] of unknown content, of length [n] *)
Lemma get_at : forall B (h : @heap B) n, length h = n -> forall cs k key r,
  match nth_error cs k with Some c => Ok (match find_member c (lit key) with Some x => x | None => JUndef end) | None => Panic end = r -> get (h ++ cs) (JRef (k + n)) key = r.
Proof. intros B h n <- cs k key r <-. apply get_rel. Qed.
Lemma put_at : forall B (h : @heap B) n, length h = n -> forall cs k key x cs',
  match nth_error cs k with Some _ => Some (update cs k (fun c => put_member c (lit key) x)) | None => None end = Some cs' -> put (h ++ cs) (JRef (k + n)) key x = Ok (h ++ cs').
Proof. intros B h n <- cs k key x cs' E. rewrite put_rel. destruct (nth_error cs k); [|discriminate]. now injection E as <-. Qed.
Lemma nth_at : forall B (h : @heap B) n, length h = n -> forall cs k r, nth_error cs k = r -> nth_error (h ++ cs) (k + n) = r.
Proof. intros B h n <- cs k r <-. apply nth_rel. Qed.
Ltac depth r := match r with S ?r' => let n := depth r' in constr:(S n) | _ => constr:(0) end.
Ltac step h L :=
  match goal with
  | |- context [get (h ++ ?cs) (JRef ?r) ?key] =>
      let k := depth r in
      let v := eval vm_compute in (match nth_error cs k with Some c => Ok (match find_member c (of_string key) with Some x => x | None => JUndef end) | None => Panic end) in
      let E := fresh in assert (get (h ++ cs) (JRef r) key = v) as E by (apply (get_at _ h _ L cs k key v); vm_compute; reflexivity); rewrite E; clear E
  | |- context [put (h ++ ?cs) (JRef ?r) ?key ?x] =>
      let k := depth r in
      let v := eval vm_compute in (match nth_error cs k with Some _ => update cs k (fun c => put_member c (of_string key) x) | None => [] end) in
      let E := fresh in assert (put (h ++ cs) (JRef r) key x = Ok (h ++ v)) as E by (apply (put_at _ h _ L cs k key x v); vm_compute; reflexivity); rewrite E; clear E
  | |- context [nth_error (h ++ ?cs) ?r] =>
      let k := depth r in
      let v := eval vm_compute in (nth_error cs k) in
      let E := fresh in assert (nth_error (h ++ cs) r = v) as E by (apply (nth_at _ h _ L cs k v); vm_compute; reflexivity); rewrite E; clear E
  | |- context [find_member ?c ?k] =>
      let v := eval vm_compute in (find_member c k) in
      let E := fresh in assert (find_member c k = v) as E by (vm_compute; reflexivity); rewrite E; clear E
  | |- context [length (h ++ ?cs)] =>
      match type of L with length h = ?n =>
        let w := eval cbn in (length cs + n) in
        let E := fresh in assert (length (h ++ cs) = w) as E by (rewrite app_length, L, Nat.add_comm; reflexivity); rewrite E; clear E
      end
  | |- context [(h ++ ?cs) ++ ?ds] => rewrite <- (app_assoc h cs ds); let v := eval cbn [app] in (cs ++ ds) in change (cs ++ ds) with v
  end; cbn [obind].
Ltac path h L := apply walk_path; [cbn [walk]; repeat step h L; reflexivity|discriminate].

Lemma build_ok : forall B height title k i (bars : B) (h : heap), exists cs v, build height title k i bars (default_option k) h = Ok (h ++ cs, v) /\ options_of (h ++ cs) k i bars height title v.
Proof.
  intros B height title k i bars h. remember (length h) as n eqn:L. symmetry in L.
  unfold build, parse. rewrite L. destruct k; cbv beta iota;
    (match goal with |- context [cells ?t n] => let v := eval vm_compute in (@cells B t n) in change (@cells B t n) with v end); cbv beta iota;
    unfold is_plan, assign_option_functions, assign_functions; cbv beta iota;
    repeat step h L;
    (eexists; eexists; (split; [reflexivity|]));
    unfold options_of; cbv beta iota;
    (split; [path h L|]; split; [path h L|]; split; [path h L|]; split; [path h L|]; split; [path h L|]; split; [path h L|]; split; [path h L|]; split; [path h L|]; path h L).
Qed.
