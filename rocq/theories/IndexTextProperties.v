(** C01-C04: index texts given with -i, safe names. *)
From Coq Require Import String List NArith Bool Lia.
From Verif Require Import Base IndexText IndexTextSpec IndexTextProofs.
Import ListNotations.

(** C01 *)
Theorem index_text_accept_sound : forall text it,
    new_index_target_from_text text = Ok it ->
    identifier (it_table it) /\ it_cols it <> [] /\ Forall identifier (it_cols it) /\
    exists line, occurs_in line text /\ index_text line (it_table it) (it_cols it).
Proof. exact parse_sound. Qed.
Example index_text_accept_sound_ex :
  new_index_target_from_text (lit "users:id+name") = Ok (mk_it (lit "users") [lit "id"; lit "name"]).
Proof. vm_compute. reflexivity. Qed.
Print Assumptions index_text_accept_sound.

Theorem index_text_total : forall text,
    (exists it, new_index_target_from_text text = Ok it) \/
    (exists m, new_index_target_from_text text = Err m).
Proof. exact parse_total. Qed.
Example index_text_total_ex :
  exists m, new_index_target_from_text (lit "users:id;drop table users") = Err m.
Proof. vm_compute. eexists. reflexivity. Qed.
Print Assumptions index_text_total.

(** C02 *)
Theorem index_option_roundtrip : forall it, identifier (it_table it) -> it_cols it <> [] ->
    Forall identifier (it_cols it) ->
    new_index_target_from_text (to_gr_index_option it) = Ok it.
Proof. exact roundtrip. Qed.
Example index_option_roundtrip_ex :
  let it := mk_it (lit "order_items") [lit "a1"; lit "_b"] in
  identifier (it_table it) /\ it_cols it <> [] /\ Forall identifier (it_cols it) /\
  to_gr_index_option it = lit "order_items:a1+_b".
Proof.
  assert (H : forall s, wordb s = true -> identifier s) by (intros s; apply wordb_iff).
  split; [apply H; reflexivity|]. split; [discriminate|]. split; [|reflexivity].
  repeat (apply Forall_cons || apply Forall_nil); apply H; reflexivity.
Qed.
Print Assumptions index_option_roundtrip.

(** C03 *)
Theorem single_line_accept_iff : forall text it, single_line text ->
    (new_index_target_from_text text = Ok it <-> index_text text (it_table it) (it_cols it)).
Proof. exact parse_single_line_iff. Qed.
Example single_line_accept_iff_ex : single_line (lit "t:c") /\ single_line (lit ":::").
Proof. unfold single_line; simpl; split; intros H; repeat (destruct H as [H|H]; [discriminate|]); auto. Qed.
Print Assumptions single_line_accept_iff.

(** Any text: the first line with an inner colon decides; the other lines are ignored. *)
Theorem index_text_accept_iff : forall text t cs,
    new_index_target_from_text text = Ok (mk_it t cs) <->
    exists ls before line after,
      lines_of text ls /\ ls = before ++ line :: after /\
      Forall (fun l => ~ has_inner_colon l) before /\ index_text line t cs.
Proof. exact parse_iff. Qed.
Example index_text_accept_iff_ex :
  new_index_target_from_text (lit "junk" ++ [10%N] ++ lit "t:c" ++ [10%N] ++ lit "x:;") = Ok (mk_it (lit "t") [lit "c"]).
Proof. vm_compute. reflexivity. Qed.
Print Assumptions index_text_accept_iff.

Theorem index_texts_accept_iff : forall texts its,
    new_index_targets_from_texts texts = Ok its <->
    Forall2 (fun t it => new_index_target_from_text t = Ok it) texts its.
Proof. exact parse_texts_iff. Qed.
Example index_texts_accept_iff_ex :
  new_index_targets_from_texts [lit "t:c"; lit "u:d+e"] =
  Ok [mk_it (lit "t") [lit "c"]; mk_it (lit "u") [lit "d"; lit "e"]].
Proof. vm_compute. reflexivity. Qed.
Print Assumptions index_texts_accept_iff.

(** "The whole accepted text is the index description" is false. *)
Theorem whole_text_claim_refuted :
  exists text it, new_index_target_from_text text = Ok it /\ ~ index_text text (it_table it) (it_cols it).
Proof.
  exists (lit "users:id" ++ [10%N] ++ lit "; DROP TABLE users"), (mk_it (lit "users") [lit "id"]).
  split; [vm_compute; reflexivity|]. intros H. apply index_text_single_line in H. apply H.
  simpl. tauto.
Qed.
Print Assumptions whole_text_claim_refuted.

(** C04 *)
Theorem is_safe_exact : forall it,
    is_safe it = true <-> identifier (it_table it) /\ Forall (fun c => Forall word_char c) (it_cols it).
Proof. exact is_safe_iff. Qed.
Example is_safe_exact_ex : is_safe (mk_it (lit "t") [lit "a"; lit "b"]) = true /\ is_safe (mk_it (lit "t") [lit "a b"]) = false.
Proof. vm_compute. auto. Qed.
Print Assumptions is_safe_exact.

Theorem safe_name_correct : forall s,
    Forall word_char (safe_name s) /\ length (safe_name s) = length s /\
    safe_name (safe_name s) = safe_name s /\ (safe_name s = s <-> Forall word_char s) /\
    (forall i c, nth_error s i = Some c ->
       (word_char c /\ nth_error (safe_name s) i = Some c) \/
       (~ word_char c /\ nth_error (safe_name s) i = Some 95%N)).
Proof.
  intros s. split; [apply safe_name_words|]. split; [apply safe_name_length|].
  split; [apply safe_name_idem|]. split; [apply safe_name_fix|].
  intros i c H. rewrite safe_name_map. rewrite (map_nth_error _ _ _ H).
  unfold safe_char. destruct (is_word c) eqn:E.
  - left. split; auto. now apply is_word_iff.
  - right. split; auto. intros HW. apply is_word_iff in HW. congruence.
Qed.
Example safe_name_correct_ex : safe_name (lit "a`b;") = lit "a_b_".
Proof. vm_compute. reflexivity. Qed.
Print Assumptions safe_name_correct.

(** A safe target always survives printing and parsing if it has non-empty columns. *)
Theorem safe_target_roundtrip : forall it, is_safe it = true -> it_cols it <> [] ->
    Forall (fun c => c <> []) (it_cols it) ->
    new_index_target_from_text (to_gr_index_option it) = Ok it.
Proof.
  intros it H Hne HF. apply is_safe_iff in H. destruct H as [Ht Hc]. apply roundtrip; auto.
  rewrite Forall_forall in *. intros c Hin. split; auto.
Qed.
Example safe_target_roundtrip_ex :
  let it := mk_it (lit "tasks") [lit "user_id"] in is_safe it = true /\ it_cols it <> [].
Proof. split; [vm_compute; reflexivity|discriminate]. Qed.
Print Assumptions safe_target_roundtrip.

(** IsSafe alone does not guarantee a usable index: an empty column name passes. *)
Theorem is_safe_columns_nonempty_refuted :
  exists it, is_safe it = true /\ it_cols it <> [] /\ ~ Forall identifier (it_cols it).
Proof.
  exists (mk_it (lit "t") [[]]). split; [vm_compute; reflexivity|]. split; [discriminate|].
  intros H. inversion H as [|? ? [H1 _] _]; subst. now apply H1.
Qed.
Print Assumptions is_safe_columns_nonempty_refuted.

(** Equality of targets (used when comparing suggestions) is real equality. *)
Theorem it_equals_iff : forall a b, it_equals a b = true <-> a = b.
Proof.
  assert (HC : forall x y, cols_equal x y = true <-> x = y).
  { induction x as [|c x IH]; intros [|d y]; simpl; split; intros H; try congruence.
    - apply andb_true_iff in H. destruct H as [H1 H2]. apply seqb_eq in H1. apply IH in H2. congruence.
    - inversion H; subst. rewrite seqb_refl. simpl. now apply IH. }
  intros [ta ca] [tb cb]. unfold it_equals. simpl. rewrite andb_true_iff, seqb_eq, HC.
  split; [intros [-> ->]; auto|]. intros H; inversion H; auto.
Qed.
Example it_equals_iff_ex : it_equals (mk_it (lit "t") [lit "a"; lit "b"]) (mk_it (lit "t") [lit "b"; lit "a"]) = false.
Proof. vm_compute. reflexivity. Qed.
Print Assumptions it_equals_iff.
