(** Decimal numerals: strconv.FormatInt / %d for non-negative numbers and
    strconv.ParseInt(s, 10, 64) on strings of digits.
    None of the definitions in this file has lines in /repo of its own. *)
From Coq Require Import String List NArith ZArith Bool Lia Arith.
From Verif Require Import Base.
Import ListNotations.

Fixpoint dec_fuel (f : nat) (n : N) : gostring :=
  match f with
  | 0 => []
  | S f' => if N.ltb n 10 then [N.add 48 n]
            else dec_fuel f' (N.div n 10) ++ [N.add 48 (N.modulo n 10)]
  end.
Definition dec_of_N (n : N) : gostring := dec_fuel (S (N.to_nat (N.log2 n))) n.

(** Value of a digit string (most significant first), with an accumulator. *)
Fixpoint digits_val (acc : N) (s : gostring) : N :=
  match s with
  | [] => acc
  | c :: s' => digits_val (10 * acc + (c - 48))%N s'
  end.

(** strconv.ParseInt(s, 10, 64) for the strings the regexps let through (ASCII
    digits only, possibly none): fails on the empty string and above 2^63-1. *)
Definition parse_int64 (s : gostring) : option Z :=
  match s with
  | [] => None
  | _ => if forallb is_digit s then
           let v := Z.of_N (digits_val 0 s) in
           if Z.ltb v (2 ^ 63) then Some v else None
         else None
  end.

Lemma digits_val_app : forall a b acc, digits_val acc (a ++ b) = digits_val (digits_val acc a) b.
Proof. induction a; simpl; intros; auto. Qed.

Lemma dec_fuel_digits : forall f n, forallb is_digit (dec_fuel f n) = true.
Proof.
  induction f; intros n; cbn [dec_fuel]; auto.
  assert (HD : forall m, (m < 10)%N -> is_digit (48 + m)%N = true).
  { intros m Hm. unfold is_digit. rewrite andb_true_iff, !N.leb_le. lia. }
  destruct (N.ltb_spec n 10).
  - cbn [forallb]. rewrite HD; auto.
  - rewrite forallb_app, IHf. cbn [forallb]. rewrite HD; auto. apply N.mod_lt; lia.
Qed.
Lemma dec_of_N_digits : forall n, forallb is_digit (dec_of_N n) = true.
Proof. intros; apply dec_fuel_digits. Qed.

Lemma dec_fuel_nonempty : forall f n, f <> 0 -> dec_fuel f n <> [].
Proof.
  intros [|f] n H; [congruence|]. cbn [dec_fuel].
  destruct (N.ltb n 10); [congruence|].
  intros E. apply app_eq_nil in E. destruct E; discriminate.
Qed.
Lemma dec_of_N_nonempty : forall n, dec_of_N n <> [].
Proof. intros; apply dec_fuel_nonempty; congruence. Qed.

Lemma div10_lt : forall f n, (n < 2 ^ N.of_nat (S f))%N -> (10 <= n)%N -> (n / 10 < 2 ^ N.of_nat f)%N.
Proof.
  intros f n H1 H2. apply N.div_lt_upper_bound; [lia|].
  rewrite Nat2N.inj_succ, N.pow_succ_r' in H1. nia.
Qed.

Lemma dec_fuel_val : forall f n acc, (n < 2 ^ N.of_nat f)%N ->
    exists k, digits_val acc (dec_fuel f n) = (acc * 10 ^ k + n)%N.
Proof.
  induction f; intros n acc H; cbn [dec_fuel].
  - exists 0%N. simpl in *. lia.
  - destruct (N.ltb_spec n 10).
    + exists 1%N. cbn [digits_val]. rewrite N.pow_1_r. lia.
    + rewrite digits_val_app. destruct (IHf (n / 10)%N acc) as [k Hk].
      { apply div10_lt; auto. }
      rewrite Hk. exists (k + 1)%N. cbn [digits_val].
      rewrite N.pow_add_r, N.pow_1_r. pose proof (N.div_mod n 10 ltac:(lia)) as Hd.
      rewrite (N.add_comm 48), N.add_sub, N.mul_add_distr_l, N.mul_assoc.
      rewrite (N.mul_comm 10 acc), <- N.mul_assoc, (N.mul_comm 10 (10 ^ k)).
      rewrite Hd at 3. lia.
Qed.

Lemma log2_fuel : forall n, (n < 2 ^ N.of_nat (S (N.to_nat (N.log2 n))))%N.
Proof.
  intros n. rewrite Nat2N.inj_succ, N2Nat.id. destruct n.
  - simpl. lia.
  - apply N.log2_spec. lia.
Qed.

Theorem dec_of_N_val : forall n, digits_val 0 (dec_of_N n) = n.
Proof.
  intros n. destruct (dec_fuel_val _ n 0 (log2_fuel n)) as [k Hk].
  unfold dec_of_N. rewrite Hk. lia.
Qed.

Theorem dec_of_N_inj : forall a b, dec_of_N a = dec_of_N b -> a = b.
Proof. intros a b H. rewrite <- (dec_of_N_val a), H. apply dec_of_N_val. Qed.

Lemma dec_fuel_length : forall k f n, (n < 10 ^ N.of_nat (S k))%N -> length (dec_fuel f n) <= S k.
Proof.
  induction k; intros f n H.
  - destruct f; simpl; [lia|]. simpl in H. destruct (N.ltb_spec n 10); simpl; lia.
  - destruct f; cbn [dec_fuel]; [simpl; lia|].
    destruct (N.ltb_spec n 10); [simpl; lia|].
    rewrite app_length. simpl length.
    assert (length (dec_fuel f (n / 10)) <= S k); [|lia].
    apply IHk. apply N.div_lt_upper_bound; [lia|].
    rewrite <- N.pow_succ_r'. now rewrite <- Nat2N.inj_succ.
Qed.
Theorem dec_of_N_length : forall k n, (n < 10 ^ N.of_nat (S k))%N -> length (dec_of_N n) <= S k.
Proof. intros; now apply dec_fuel_length. Qed.

Theorem parse_int64_dec : forall n, (Z.of_N n < 2 ^ 63)%Z -> parse_int64 (dec_of_N n) = Some (Z.of_N n).
Proof.
  intros n H. unfold parse_int64. pose proof (dec_of_N_nonempty n).
  destruct (dec_of_N n) eqn:E; [congruence|]. rewrite <- E.
  rewrite dec_of_N_digits, dec_of_N_val. apply Z.ltb_lt in H. now rewrite H.
Qed.
