(** Proofs about the text of the data. *)
From Coq Require Import String List NArith ZArith QArith Bool Lia Arith.
From Verif Require Import Base Json JsonSpec.
Import ListNotations.
Local Open Scope nat_scope.

Section Ind.
  Variable P : jv -> Prop.
  Hypothesis Hnull : P JNull.
  Hypothesis Hbool : forall b, P (JBool b).
  Hypothesis Hnum : forall q, P (JNum q).
  Hypothesis Hstr : forall s, P (JStr s).
  Hypothesis Harr : forall l, Forall P l -> P (JArr l).
  Hypothesis Hobj : forall l, Forall (fun kv => P (snd kv)) l -> P (JObj l).
  Fixpoint jv_ind' (v : jv) : P v :=
    match v with
    | JNull => Hnull
    | JBool b => Hbool b
    | JNum q => Hnum q
    | JStr s => Hstr s
    | JArr l => Harr l ((fix go l : Forall P l := match l with [] => Forall_nil _ | x :: l' => Forall_cons _ (jv_ind' x) (go l') end) l)
    | JObj l => Hobj l ((fix go l : Forall (fun kv => P (snd kv)) l :=
                           match l with [] => Forall_nil _ | x :: l' => Forall_cons _ (jv_ind' (snd x)) (go l') end) l)
    end.
End Ind.

(** ** Strings *)
Lemma below_ind (n : nat) (P : N -> bool) :
  forallb (fun k => P (N.of_nat k)) (seq 0 n) = true -> forall c, (c < N.of_nat n)%N -> P c = true.
Proof.
  intros H c Hc. rewrite forallb_forall in H.
  specialize (H (N.to_nat c)). rewrite N2Nat.id in H. apply H. apply in_seq. lia.
Qed.
Definition hex_ok (c : N) : bool :=
  match hex4 c with
  | [a; b; d; f] => match hex_value a, hex_value b, hex_value d, hex_value f with
                    | Some a', Some b', Some d', Some f' => N.eqb (((a' * 16 + b') * 16 + d') * 16 + f') c
                    | _, _, _, _ => false
                    end
  | _ => false
  end.
Definition escaped (c : N) : bool :=
  (N.ltb c 32 || N.eqb c 60 || N.eqb c 62 || N.eqb c 38 || N.eqb c 8232 || N.eqb c 8233)%bool.
Lemma escaped_cases c : escaped c = true -> (c < 32)%N \/ c = 60%N \/ c = 62%N \/ c = 38%N \/ c = 8232%N \/ c = 8233%N.
Proof.
  unfold escaped. rewrite !orb_true_iff, N.ltb_lt, !N.eqb_eq. tauto.
Qed.
Lemma hex_ok_escaped c : escaped c = true -> hex_ok c = true.
Proof.
  intros H. destruct (escaped_cases c H) as [H1|[H1|[H1|[H1|[H1|H1]]]]]; try (subst c; vm_compute; reflexivity).
  apply (below_ind 32 hex_ok); [vm_compute; reflexivity|exact H1].
Qed.

Lemma read_json_char c s :
  read_string (json_char c ++ s) = match read_string s with Some (t, r) => Some (c :: t, r) | None => None end.
Proof.
  unfold json_char.
  destruct (N.eqb c 34) eqn:E1; [apply N.eqb_eq in E1; subst c; reflexivity|].
  destruct (N.eqb c 92) eqn:E2; [apply N.eqb_eq in E2; subst c; reflexivity|].
  cbn [orb].
  destruct (N.eqb c 10) eqn:E3; [apply N.eqb_eq in E3; subst c; reflexivity|].
  destruct (N.eqb c 13) eqn:E4; [apply N.eqb_eq in E4; subst c; reflexivity|].
  destruct (N.eqb c 9) eqn:E5; [apply N.eqb_eq in E5; subst c; reflexivity|].
  fold (escaped c). destruct (escaped c) eqn:E6.
  - pose proof (hex_ok_escaped c E6) as H. unfold hex_ok in H.
    destruct (hex4 c) as [|a [|b [|d [|f [|x q]]]]] eqn:Eh; try discriminate H.
    cbn. destruct (hex_value a); [|discriminate H]. destruct (hex_value b); [|discriminate H].
    destruct (hex_value d); [|discriminate H]. destruct (hex_value f); [|discriminate H].
    apply N.eqb_eq in H. rewrite H. destruct (read_string s) as [[t r]|]; reflexivity.
  - unfold escaped in E6. cbn [app]. cbn. rewrite E1, E2.
    assert (E7 : (N.ltb c 32 || N.eqb c 8232 || N.eqb c 8233)%bool = false).
    { rewrite !orb_false_iff in *. tauto. }
    rewrite E7. destruct (read_string s) as [[t r]|]; reflexivity.
Qed.
Lemma read_json_string s r : read_string (flat_map json_char s ++ 34%N :: r) = Some (s, r).
Proof.
  induction s as [|c s IH]; [reflexivity|].
  cbn [flat_map]. rewrite <- app_assoc, read_json_char, IH. reflexivity.
Qed.

(** ** Values *)
Section Values.
  Variable num_text : Q -> gostring.
  Variable num_value : gostring -> option Q.
  Notation num_fine := (number_fine num_text num_value).
  Fixpoint cost (v : jv) : nat :=
    match v with
    | JArr l => 1 + (fix go l := match l with [] => 0 | x :: l' => 1 + cost x + go l' end) l
    | JObj l => 1 + (fix go l := match l with [] => 0 | x :: l' => 1 + cost (snd x) + go l' end) l
    | _ => 1
    end.
  Fixpoint costs (l : list jv) : nat := match l with [] => 0 | x :: l' => 1 + cost x + costs l' end.
  Definition ends (r : gostring) : Prop := match r with [] => True | c :: _ => num_char c = false end.

  Lemma read_num_text t r : Forall (fun c => num_char c = true) t -> ends r -> read_num (t ++ r) = (t, r).
  Proof.
    intros H He. induction H as [|c t Hc Ht IH]; cbn [app].
    - destruct r as [|c r]; [reflexivity|]. cbn in *. rewrite He. reflexivity.
    - cbn [read_num]. rewrite Hc, IH. reflexivity.
  Qed.
  (** The first character of a value. *)
  Definition opening (c : N) : bool :=
    (num_char c || N.eqb c 34 || N.eqb c 91 || N.eqb c 123 || N.eqb c 110 || N.eqb c 116 || N.eqb c 102)%bool.
  Lemma json_text_head v : numbers num_fine v -> exists c t, json_text num_text v = c :: t /\ opening c = true.
  Proof.
    destruct v as [|b|q|s|l|l]; cbn [json_text numbers]; intros H.
    - eexists _, _. split; [reflexivity|reflexivity].
    - destruct b; eexists _, _; (split; [reflexivity|reflexivity]).
    - destruct H as (Hn & Hf & Hv). destruct (num_text q) as [|c t]; [contradiction|].
      inversion Hf as [|x y Hc Hr]. exists c, t. split; [reflexivity|]. unfold opening. rewrite Hc. reflexivity.
    - eexists _, _. split; [reflexivity|reflexivity].
    - eexists _, _. split; [reflexivity|reflexivity].
    - eexists _, _. split; [reflexivity|reflexivity].
  Qed.
  Lemma opening_cases (c : N) (P : N -> Prop) :
    opening c = true -> (forall k, opening k = true -> (k < 128)%N -> P k) -> P c.
  Proof.
    intros H HP. apply HP; [exact H|].
    unfold opening, num_char in H. rewrite !orb_true_iff, !andb_true_iff, !N.eqb_eq, !N.leb_le in H. lia.
  Qed.
  Lemma opening_facts c : opening c = true -> skip_blanks [c] = [c] /\ c <> 93%N /\ c <> 125%N /\ c <> 44%N.
  Proof.
    intros H. cbn.
    unfold opening, num_char in H. rewrite !orb_true_iff, !andb_true_iff, !N.eqb_eq, !N.leb_le in H.
    destruct (N.eqb c 32) eqn:E1; [apply N.eqb_eq in E1; exfalso; lia|].
    destruct (N.eqb c 9) eqn:E2; [apply N.eqb_eq in E2; exfalso; lia|].
    destruct (N.eqb c 10) eqn:E3; [apply N.eqb_eq in E3; exfalso; lia|].
    destruct (N.eqb c 13) eqn:E4; [apply N.eqb_eq in E4; exfalso; lia|].
    split; [reflexivity|]. lia.
  Qed.
  Lemma skip_opening c t : opening c = true -> skip_blanks (c :: t) = c :: t.
  Proof.
    intros H. destruct (opening_facts c H) as (H1 & _). cbn in *.
    destruct (N.eqb c 32 || N.eqb c 9 || N.eqb c 10 || N.eqb c 13)%bool; [discriminate|reflexivity].
  Qed.
  Lemma num_char_facts c : num_char c = true -> N.eqb c 34 = false /\ N.eqb c 91 = false /\ N.eqb c 123 = false.
  Proof.
    unfold num_char. rewrite !orb_true_iff, !andb_true_iff, !N.eqb_eq, !N.leb_le. intros H.
    repeat split; apply N.eqb_neq; lia.
  Qed.

  Lemma read_items_S n s : read_items num_value (S n) s =
    match read_value num_value n s with
    | None => None
    | Some (v, r) =>
        match skip_blanks r with
        | 93%N :: r' => Some ([v], r')
        | 44%N :: r' => match read_items num_value n r' with Some (l, r2) => Some (v :: l, r2) | None => None end
        | _ => None
        end
    end.
  Proof. reflexivity. Qed.
  Lemma read_members_S n s : read_members num_value (S n) s =
    match skip_blanks s with
    | 34%N :: s1 =>
        match read_string s1 with
        | None => None
        | Some (k, s2) =>
            match skip_blanks s2 with
            | 58%N :: s3 =>
                match read_value num_value n s3 with
                | None => None
                | Some (v, r) =>
                    match skip_blanks r with
                    | 125%N :: r' => Some ([(k, v)], r')
                    | 44%N :: r' => match read_members num_value n r' with Some (l, r2) => Some ((k, v) :: l, r2) | None => None end
                    | _ => None
                    end
                end
            | _ => None
            end
        end
    | _ => None
    end.
  Proof. reflexivity. Qed.
  Lemma read_value_S n s : read_value num_value (S n) s =
    match skip_blanks s with
    | [] => None
    | c :: s' =>
        if N.eqb c 34 then match read_string s' with Some (t, r) => Some (JStr t, r) | None => None end
        else if N.eqb c 91 then
          match skip_blanks s' with
          | 93%N :: r => Some (JArr [], r)
          | _ => match read_items num_value n s' with Some (l, r) => Some (JArr l, r) | None => None end
          end
        else if N.eqb c 123 then
          match skip_blanks s' with
          | 125%N :: r => Some (JObj [], r)
          | _ => match read_members num_value n s' with Some (l, r) => Some (JObj l, r) | None => None end
          end
        else if num_char c then
          let '(t, r) := read_num (c :: s') in
          match num_value t with Some q => Some (JNum q, r) | None => None end
        else match strip (lit "null") (c :: s') with
             | Some r => Some (JNull, r)
             | None => match strip (lit "true") (c :: s') with
                       | Some r => Some (JBool true, r)
                       | None => match strip (lit "false") (c :: s') with
                                 | Some r => Some (JBool false, r)
                                 | None => None
                                 end
                       end
             end
    end.
  Proof. reflexivity. Qed.

  Definition reads_back (v : jv) : Prop :=
    forall n r, cost v <= n -> ends r -> read_value num_value n (json_text num_text v ++ r) = Some (v, r).

  Lemma items_back l : l <> [] -> Forall reads_back l -> forall n r, costs l <= n ->
    read_items num_value n (join (lit ",") (map (json_text num_text) l) ++ 93%N :: r) = Some (l, r).
  Proof.
    induction l as [|v l IH]; [contradiction|]. intros _ H n r Hn. inversion H as [|x y Hv Hl]; subst.
    cbn [costs] in Hn. destruct n as [|n]; [lia|].
    destruct l as [|w l].
    - cbn [map join]. rewrite read_items_S. rewrite (Hv n (93%N :: r)); [|lia|reflexivity].
      reflexivity.
    - change (join (lit ",") (map (json_text num_text) (v :: w :: l)))
        with (json_text num_text v ++ lit "," ++ join (lit ",") (map (json_text num_text) (w :: l))).
      rewrite <- !app_assoc. change (lit "," ++ join (lit ",") (map (json_text num_text) (w :: l)) ++ 93%N :: r)
        with (44%N :: (join (lit ",") (map (json_text num_text) (w :: l)) ++ 93%N :: r)).
      rewrite read_items_S. rewrite (Hv n); [|lia|reflexivity].
      change (skip_blanks (44%N :: ?x)) with (44%N :: x).
      cbv iota. rewrite (IH ltac:(discriminate) Hl n r) by lia. reflexivity.
  Qed.
  Definition member_text (kv : gostring * jv) : gostring := json_string (fst kv) ++ lit ":" ++ json_text num_text (snd kv).
  Lemma members_back l : l <> [] -> Forall (fun kv => reads_back (snd kv)) l -> forall n r, costs (map snd l) <= n ->
    read_members num_value n (join (lit ",") (map member_text l) ++ 125%N :: r) = Some (l, r).
  Proof.
    induction l as [|[k v] l IH]; [contradiction|]. intros _ H n r Hn. inversion H as [|x y Hv Hl]; subst. cbn [snd] in Hv.
    cbn [costs map snd] in Hn. destruct n as [|n]; [lia|].
    assert (Hone : forall tail c, num_char c = false ->
      read_members num_value (S n) (member_text (k, v) ++ c :: tail) =
      match skip_blanks (c :: tail) with
      | 125%N :: r' => Some ([(k, v)], r')
      | 44%N :: r' => match read_members num_value n r' with Some (l, r2) => Some ((k, v) :: l, r2) | None => None end
      | _ => None
      end).
    { intros tail c Hc. unfold member_text, json_string. cbn [fst snd]. rewrite <- !app_assoc.
      change (lit """" ++ ?x) with (34%N :: x).
      change (lit ":" ++ ?x) with (58%N :: x).
      rewrite read_members_S. change (skip_blanks (34%N :: ?x)) with (34%N :: x).
      cbv iota. change (lit """" ++ ?x) with (34%N :: x).
      rewrite read_json_string. cbv iota beta.
      change (skip_blanks (58%N :: ?x)) with (58%N :: x).
      cbv iota. rewrite (Hv n (c :: tail)); [reflexivity|lia|exact Hc]. }
    destruct l as [|w l].
    - cbn [map join]. rewrite Hone by reflexivity. reflexivity.
    - change (join (lit ",") (map member_text ((k, v) :: w :: l)))
        with (member_text (k, v) ++ lit "," ++ join (lit ",") (map member_text (w :: l))).
      rewrite <- !app_assoc. change (lit "," ++ join (lit ",") (map member_text (w :: l)) ++ 125%N :: r)
        with (44%N :: (join (lit ",") (map member_text (w :: l)) ++ 125%N :: r)).
      rewrite Hone by reflexivity.
      change (skip_blanks (44%N :: ?x)) with (44%N :: x).
      cbv iota. rewrite (IH ltac:(discriminate) Hl n r) by lia. reflexivity.
  Qed.

  Lemma numbers_arr l : numbers num_fine (JArr l) -> Forall (numbers num_fine) l.
  Proof. cbn. induction l as [|x l IH]; [constructor|]. intros [H1 H2]. constructor; [exact H1|apply IH; exact H2]. Qed.
  Lemma numbers_obj l : numbers num_fine (JObj l) -> Forall (fun kv => numbers num_fine (snd kv)) l.
  Proof. cbn. induction l as [|x l IH]; [constructor|]. intros [H1 H2]. constructor; [exact H1|apply IH; exact H2]. Qed.
  Lemma cost_arr l : cost (JArr l) = S (costs l).
  Proof. reflexivity. Qed.
  Lemma cost_obj l : cost (JObj l) = S (costs (map snd l)).
  Proof.
    cbn. apply f_equal. induction l as [|x l IH]; [reflexivity|]. cbn. rewrite IH. reflexivity.
  Qed.
  Lemma combine_forall {A} (P R : A -> Prop) l : Forall (fun x => P x -> R x) l -> Forall P l -> Forall R l.
  Proof. induction 1 as [|x l H1 H2 IH]; intros H; inversion H; subst; constructor; auto. Qed.

  Lemma join_head (f : jv -> gostring) x l : exists t, join (lit ",") (map f (x :: l)) = f x ++ t.
  Proof. destruct l as [|y l]; [exists []; cbn; rewrite app_nil_r; reflexivity|]. eexists. reflexivity. Qed.

  Lemma reads_back_all v : numbers num_fine v -> reads_back v.
  Proof.
    induction v as [|b|q|s|l IH|l IH] using jv_ind'; intros Hv n r Hn He.
    - destruct n as [|n]; [cbn in Hn; lia|]. reflexivity.
    - destruct n as [|n]; [cbn in Hn; lia|]. destruct b; reflexivity.
    - destruct n as [|n]; [cbn in Hn; lia|]. cbn [json_text numbers] in *.
      destruct (json_text_head (JNum q) Hv) as (c & t & Et & Ho). cbn [json_text] in Et.
      destruct Hv as (Hne & Hf & Hval). pose proof Hf as Hf0. rewrite Et in Hf.
      inversion Hf as [|x y Hc Hr]; subst x y.
      rewrite read_value_S. rewrite Et. cbn [app]. rewrite skip_opening by exact Ho.
      destruct (num_char_facts c Hc) as (E1 & E2 & E3). rewrite E1, E2, E3, Hc.
      change (c :: t ++ r) with ((c :: t) ++ r). rewrite <- Et, read_num_text by assumption. rewrite Hval. reflexivity.
    - destruct n as [|n]; [cbn in Hn; lia|]. cbn [json_text]. unfold json_string. rewrite <- !app_assoc.
      change (lit """" ++ flat_map json_char s ++ lit """" ++ r) with (34%N :: (flat_map json_char s ++ 34%N :: r)).
      rewrite read_value_S. change (skip_blanks (34%N :: ?x)) with (34%N :: x).
      change (N.eqb 34 34) with true. cbv iota. rewrite read_json_string. reflexivity.
    - rewrite cost_arr in Hn. destruct n as [|n]; [lia|].
      pose proof (numbers_arr l Hv) as Hl. pose proof (combine_forall _ _ l IH Hl) as Hb.
      cbn [json_text]. rewrite <- !app_assoc.
      change (lit "[" ++ join (lit ",") (map (json_text num_text) l) ++ lit "]" ++ r)
        with (91%N :: (join (lit ",") (map (json_text num_text) l) ++ 93%N :: r)).
      rewrite read_value_S. change (skip_blanks (91%N :: ?x)) with (91%N :: x).
      change (N.eqb 91 34) with false. change (N.eqb 91 91) with true. cbv iota.
      destruct l as [|v l]; [reflexivity|].
      rewrite (items_back (v :: l) ltac:(discriminate) Hb n r) by lia.
      inversion Hl as [|x y H1 H2]; subst x y. destruct (json_text_head v H1) as (c & t & Et & Ho).
      destruct (join_head (json_text num_text) v l) as [t' Ej]. rewrite Ej, Et. cbn [app].
      rewrite skip_opening by exact Ho.
      destruct (opening_facts c Ho) as (_ & H93 & _ & _).
      destruct (N.eq_dec c 93) as [E|E]; [contradiction|].
      destruct c as [|p]; [reflexivity|].
      do 8 (destruct p as [p|p|]; try reflexivity; try contradiction).
    - rewrite cost_obj in Hn. destruct n as [|n]; [lia|].
      pose proof (numbers_obj l Hv) as Hl. pose proof (combine_forall _ _ l IH Hl) as Hb.
      cbn [json_text]. rewrite <- !app_assoc.
      change (map (fun kv => json_string (fst kv) ++ lit ":" ++ json_text num_text (snd kv)) l) with (map member_text l).
      change (lit "{" ++ join (lit ",") (map member_text l) ++ lit "}" ++ r)
        with (123%N :: (join (lit ",") (map member_text l) ++ 125%N :: r)).
      rewrite read_value_S. change (skip_blanks (123%N :: ?x)) with (123%N :: x).
      change (N.eqb 123 34) with false. change (N.eqb 123 91) with false. change (N.eqb 123 123) with true. cbv iota.
      destruct l as [|kv l]; [reflexivity|].
      rewrite (members_back (kv :: l) ltac:(discriminate) Hb n r) by lia.
      assert (Hq : exists t, join (lit ",") (map member_text (kv :: l)) = 34%N :: t).
      { destruct l as [|y l]; eexists; reflexivity. }
      destruct Hq as [t Eq]. rewrite Eq. reflexivity.
  Qed.

  Lemma join_length (l : list gostring) : fold_right (fun x n => length x + n) 0 l <= length (join (lit ",") l).
  Proof.
    induction l as [|x l IH]; [cbn; lia|]. destruct l as [|y l]; [cbn; lia|].
    change (join (lit ",") (x :: y :: l)) with (x ++ lit "," ++ join (lit ",") (y :: l)).
    rewrite !app_length. cbn [fold_right] in *. change (length (lit ",")) with 1. lia.
  Qed.
  Lemma costs_text l : Forall (fun v => cost v < 2 * length (json_text num_text v)) l ->
    costs l <= 2 * fold_right (fun x n => length x + n) 0 (map (json_text num_text) l).
  Proof.
    induction 1 as [|v l H1 H2 IH]; [cbn; lia|]. cbn [costs map fold_right]. lia.
  Qed.
  Lemma cost_text v : numbers num_fine v -> cost v < 2 * length (json_text num_text v).
  Proof.
    induction v as [|b|q|s|l IH|l IH] using jv_ind'; intros Hv.
    - cbn. lia.
    - destruct b; cbn; lia.
    - cbn [numbers] in Hv. destruct Hv as (Hne & _). cbn [cost json_text].
      destruct (num_text q); [contradiction|cbn; lia].
    - cbn [cost json_text]. unfold json_string. rewrite app_length. cbn. lia.
    - rewrite cost_arr. pose proof (combine_forall _ _ l IH (numbers_arr l Hv)) as Hb.
      pose proof (costs_text l Hb) as H1. pose proof (join_length (map (json_text num_text) l)) as H2.
      cbn [json_text]. rewrite !app_length. change (length (lit "[")) with 1. lia.
    - rewrite cost_obj. pose proof (combine_forall _ _ l IH (numbers_obj l Hv)) as Hb.
      cbn [json_text]. change (map (fun kv => json_string (fst kv) ++ lit ":" ++ json_text num_text (snd kv)) l) with (map member_text l).
      pose proof (join_length (map member_text l)) as H2. rewrite !app_length. change (length (lit "{")) with 1.
      assert (H1 : costs (map snd l) <= 2 * fold_right (fun x n => length x + n) 0 (map member_text l)).
      { clear -Hb. induction Hb as [|[k v] l H1 H2 IH]; [cbn; lia|]. cbn [snd] in H1. cbn [costs map fold_right snd].
        assert (length (json_text num_text v) <= length (member_text (k, v))) by (unfold member_text; cbn [fst snd]; rewrite !app_length; lia).
        lia. }
      lia.
  Qed.

  Theorem script_reads v : numbers num_fine v -> script_value num_value (report_script num_text v) = Some v.
  Proof.
    intros Hv. unfold script_value, report_script.
    change (skip_blanks ([10%N] ++ lit "      window.grParam = " ++ json_text num_text v ++ [10%N] ++ lit "    "))
      with (lit "window.grParam" ++ lit " = " ++ json_text num_text v ++ [10%N] ++ lit "    ").
    change (strip (lit "window.grParam") (lit "window.grParam" ++ lit " = " ++ json_text num_text v ++ [10%N] ++ lit "    "))
      with (Some (lit " = " ++ json_text num_text v ++ [10%N] ++ lit "    ")).
    cbv iota beta.
    change (skip_blanks (lit " = " ++ json_text num_text v ++ [10%N] ++ lit "    "))
      with (61%N :: 32%N :: json_text num_text v ++ [10%N] ++ lit "    ").
    cbv iota.
    pose proof (reads_back_all v Hv) as Hr. pose proof (cost_text v Hv) as Hc.
    pose proof (Hr (S (2 * length (32%N :: json_text num_text v ++ [10%N] ++ lit "    "))) ([10%N] ++ lit "    ")) as H1.
    rewrite read_value_S in H1. rewrite read_value_S.
    change (skip_blanks (32%N :: json_text num_text v ++ [10%N] ++ lit "    ")) with (skip_blanks (json_text num_text v ++ [10%N] ++ lit "    ")).
    rewrite H1; [reflexivity| |reflexivity].
    cbn [length]. rewrite app_length. lia.
  Qed.

  (** ** No character of the text ends the script *)
  Definition harmless (c : N) : Prop := (32 <= c)%N /\ c <> 60%N /\ c <> 62%N /\ c <> 38%N /\ c <> 8232%N /\ c <> 8233%N.
  Definition harmlessb (c : N) : bool := negb (escaped c).
  Lemma harmlessb_ok c : harmlessb c = true -> harmless c.
  Proof.
    unfold harmlessb, harmless, escaped. rewrite negb_true_iff, !orb_false_iff, N.ltb_ge, !N.eqb_neq. tauto.
  Qed.
  Lemma harmless_lit s : forallb harmlessb s = true -> Forall harmless s.
  Proof. rewrite forallb_forall, Forall_forall. intros H x Hx. apply harmlessb_ok, H, Hx. Qed.
  Lemma harmless_char c : Forall harmless (json_char c).
  Proof.
    unfold json_char.
    destruct (N.eqb c 34) eqn:E1; [apply N.eqb_eq in E1; subst c; apply harmless_lit; reflexivity|].
    destruct (N.eqb c 92) eqn:E2; [apply N.eqb_eq in E2; subst c; apply harmless_lit; reflexivity|].
    cbn [orb].
    destruct (N.eqb c 10) eqn:E3; [apply harmless_lit; reflexivity|].
    destruct (N.eqb c 13) eqn:E4; [apply harmless_lit; reflexivity|].
    destruct (N.eqb c 9) eqn:E5; [apply harmless_lit; reflexivity|].
    fold (escaped c). destruct (escaped c) eqn:E6.
    - apply harmless_lit.
      destruct (escaped_cases c E6) as [H1|[H1|[H1|[H1|[H1|H1]]]]]; try (subst c; vm_compute; reflexivity).
      apply (below_ind 32 (fun c => forallb harmlessb (lit "\u" ++ hex4 c))); [vm_compute; reflexivity|exact H1].
    - constructor; [|constructor]. apply harmlessb_ok. unfold harmlessb. rewrite E6. reflexivity.
  Qed.
  Lemma harmless_string s : Forall harmless (json_string s).
  Proof.
    unfold json_string. apply Forall_app; split; [apply harmless_lit; reflexivity|].
    apply Forall_app; split; [|apply harmless_lit; reflexivity].
    induction s as [|c s IH]; cbn [flat_map]; [constructor|]. apply Forall_app; split; [apply harmless_char|exact IH].
  Qed.
  Lemma harmless_join l : Forall (Forall harmless) l -> Forall harmless (join (lit ",") l).
  Proof.
    induction 1 as [|x l H1 H2 IH]; [constructor|]. destruct l as [|y l]; [exact H1|].
    change (join (lit ",") (x :: y :: l)) with (x ++ lit "," ++ join (lit ",") (y :: l)).
    apply Forall_app; split; [exact H1|]. apply Forall_app; split; [apply harmless_lit; reflexivity|exact IH].
  Qed.
  Lemma num_char_harmless c : num_char c = true -> harmless c.
  Proof.
    unfold num_char, harmless. rewrite !orb_true_iff, !andb_true_iff, !N.eqb_eq, !N.leb_le. intros H. lia.
  Qed.
  Theorem text_harmless v : numbers num_fine v -> Forall harmless (json_text num_text v).
  Proof.
    induction v as [|b|q|s|l IH|l IH] using jv_ind'; intros Hv.
    - apply harmless_lit; reflexivity.
    - destruct b; apply harmless_lit; reflexivity.
    - destruct Hv as (_ & Hf & _). cbn [json_text]. apply Forall_impl with (2 := Hf). intros c. apply num_char_harmless.
    - apply harmless_string.
    - cbn [json_text]. apply Forall_app; split; [apply harmless_lit; reflexivity|].
      apply Forall_app; split; [|apply harmless_lit; reflexivity]. apply harmless_join.
      apply Forall_map. apply (combine_forall _ _ l IH (numbers_arr l Hv)).
    - cbn [json_text]. apply Forall_app; split; [apply harmless_lit; reflexivity|].
      apply Forall_app; split; [|apply harmless_lit; reflexivity]. apply harmless_join.
      apply Forall_map. pose proof (combine_forall _ _ l IH (numbers_obj l Hv)) as Hb.
      apply Forall_impl with (2 := Hb). intros kv H. apply Forall_app; split; [apply harmless_string|].
      apply Forall_app; split; [apply harmless_lit; reflexivity|exact H].
  Qed.
End Values.
