(** Reading values whose strings are written in any way that is read. *)
From Coq Require Import String List NArith ZArith QArith Bool Lia Arith.
From Verif Require Import Base Json JsonSpec JsonProofs Utf8 Utf8Spec Utf8Proofs.
Import ListNotations.
Local Open Scope nat_scope.

Section Values.
  Context (str_in str_val : gostring -> gostring) (num_text : Q -> gostring) (num_value : gostring -> option Q).
  Hypothesis READ : forall s r, read_string (str_in s ++ 34%N :: r) = Some (str_val s, r).
  Notation num_fine := (number_fine num_text num_value).
  Definition quoted (s : gostring) : gostring := lit """" ++ str_in s ++ lit """".
  Notation text := (json_with quoted num_text).
  Fixpoint as_read (v : jv) : jv :=
    match v with
    | JStr s => JStr (str_val s)
    | JArr l => JArr (map as_read l)
    | JObj l => JObj (map (fun kv => (str_val (fst kv), as_read (snd kv))) l)
    | _ => v
    end.

  Lemma text_head v : numbers num_fine v -> exists c t, text v = c :: t /\ opening c = true.
  Proof.
    destruct v as [|b|q|s|l|l]; cbn [json_with numbers]; intros H.
    - eexists _, _. split; [reflexivity|reflexivity].
    - destruct b; eexists _, _; (split; [reflexivity|reflexivity]).
    - destruct H as (Hn & Hf & Hv). destruct (num_text q) as [|c t]; [contradiction|].
      inversion Hf as [|x y Hc Hr]. exists c, t. split; [reflexivity|]. unfold opening. rewrite Hc. reflexivity.
    - eexists _, _. split; [reflexivity|reflexivity].
    - eexists _, _. split; [reflexivity|reflexivity].
    - eexists _, _. split; [reflexivity|reflexivity].
  Qed.
  Definition reads_as (v : jv) : Prop :=
    forall n r, cost v <= n -> ends r -> read_value num_value n (text v ++ r) = Some (as_read v, r).

  Lemma items_as l : l <> [] -> Forall reads_as l -> forall n r, costs l <= n ->
    read_items num_value n (join (lit ",") (map text l) ++ 93%N :: r) = Some (map as_read l, r).
  Proof.
    induction l as [|v l IH]; [contradiction|]. intros _ H n r Hn. inversion H as [|x y Hv Hl]; subst.
    cbn [costs] in Hn. destruct n as [|n]; [lia|].
    destruct l as [|w l].
    - cbn [map join]. rewrite read_items_S. rewrite (Hv n (93%N :: r)); [|lia|reflexivity].
      reflexivity.
    - change (join (lit ",") (map text (v :: w :: l))) with (text v ++ lit "," ++ join (lit ",") (map text (w :: l))).
      rewrite <- !app_assoc. change (lit "," ++ join (lit ",") (map text (w :: l)) ++ 93%N :: r)
        with (44%N :: (join (lit ",") (map text (w :: l)) ++ 93%N :: r)).
      rewrite read_items_S. rewrite (Hv n); [|lia|reflexivity].
      change (skip_blanks (44%N :: ?x)) with (44%N :: x).
      cbv iota. rewrite (IH ltac:(discriminate) Hl n r) by lia. reflexivity.
  Qed.
  Definition entry_text (kv : gostring * jv) : gostring := quoted (fst kv) ++ lit ":" ++ text (snd kv).
  Definition entry_read (kv : gostring * jv) : gostring * jv := (str_val (fst kv), as_read (snd kv)).
  Lemma members_as l : l <> [] -> Forall (fun kv => reads_as (snd kv)) l -> forall n r, costs (map snd l) <= n ->
    read_members num_value n (join (lit ",") (map entry_text l) ++ 125%N :: r) = Some (map entry_read l, r).
  Proof.
    induction l as [|[k v] l IH]; [contradiction|]. intros _ H n r Hn. inversion H as [|x y Hv Hl]; subst. cbn [snd] in Hv.
    cbn [costs map snd] in Hn. destruct n as [|n]; [lia|].
    assert (Hone : forall tail c, num_char c = false ->
      read_members num_value (S n) (entry_text (k, v) ++ c :: tail) =
      match skip_blanks (c :: tail) with
      | 125%N :: r' => Some ([entry_read (k, v)], r')
      | 44%N :: r' => match read_members num_value n r' with Some (l, r2) => Some (entry_read (k, v) :: l, r2) | None => None end
      | _ => None
      end).
    { intros tail c Hc.
      assert (E : entry_text (k, v) ++ c :: tail = 34%N :: (str_in k ++ 34%N :: (58%N :: (text v ++ c :: tail)))).
      { change (entry_text (k, v)) with ((34%N :: (str_in k ++ [34%N])) ++ 58%N :: text v). cbn [app]. rewrite <- !app_assoc. reflexivity. }
      rewrite E. rewrite read_members_S. change (skip_blanks (34%N :: ?x)) with (34%N :: x).
      cbv iota. rewrite READ. cbv iota beta.
      change (skip_blanks (58%N :: ?x)) with (58%N :: x).
      cbv iota. rewrite (Hv n (c :: tail)); [reflexivity|lia|exact Hc]. }
    destruct l as [|w l].
    - cbn [map join]. rewrite Hone by reflexivity. reflexivity.
    - change (join (lit ",") (map entry_text ((k, v) :: w :: l)))
        with (entry_text (k, v) ++ lit "," ++ join (lit ",") (map entry_text (w :: l))).
      rewrite <- !app_assoc. change (lit "," ++ join (lit ",") (map entry_text (w :: l)) ++ 125%N :: r)
        with (44%N :: (join (lit ",") (map entry_text (w :: l)) ++ 125%N :: r)).
      rewrite Hone by reflexivity.
      change (skip_blanks (44%N :: ?x)) with (44%N :: x).
      cbv iota. rewrite (IH ltac:(discriminate) Hl n r) by lia. reflexivity.
  Qed.
  Lemma reads_as_all v : numbers num_fine v -> reads_as v.
  Proof.
    induction v as [|b|q|s|l IH|l IH] using jv_ind'; intros Hv n r Hn He.
    - destruct n as [|n]; [cbn in Hn; lia|]. reflexivity.
    - destruct n as [|n]; [cbn in Hn; lia|]. destruct b; reflexivity.
    - destruct n as [|n]; [cbn in Hn; lia|]. cbn [json_with numbers] in *.
      destruct (text_head (JNum q) Hv) as (c & t & Et & Ho). cbn [json_with] in Et.
      destruct Hv as (Hne & Hf & Hval). pose proof Hf as Hf0. rewrite Et in Hf.
      inversion Hf as [|x y Hc Hr]; subst x y.
      rewrite read_value_S. rewrite Et. cbn [app]. rewrite skip_opening by exact Ho.
      destruct (num_char_facts c Hc) as (E1 & E2 & E3). rewrite E1, E2, E3, Hc.
      change (c :: t ++ r) with ((c :: t) ++ r). rewrite <- Et, read_num_text by assumption. rewrite Hval. reflexivity.
    - destruct n as [|n]; [cbn in Hn; lia|]. cbn [json_with]. unfold quoted. rewrite <- !app_assoc.
      change (lit """" ++ str_in s ++ lit """" ++ r) with (34%N :: (str_in s ++ 34%N :: r)).
      rewrite read_value_S. change (skip_blanks (34%N :: ?x)) with (34%N :: x).
      change (N.eqb 34 34) with true. cbv iota. rewrite READ. reflexivity.
    - rewrite cost_arr in Hn. destruct n as [|n]; [lia|].
      pose proof (numbers_arr num_text num_value l Hv) as Hl. pose proof (combine_forall _ _ l IH Hl) as Hb.
      cbn [json_with]. rewrite <- !app_assoc.
      change (lit "[" ++ join (lit ",") (map text l) ++ lit "]" ++ r)
        with (91%N :: (join (lit ",") (map text l) ++ 93%N :: r)).
      rewrite read_value_S. change (skip_blanks (91%N :: ?x)) with (91%N :: x).
      change (N.eqb 91 34) with false. change (N.eqb 91 91) with true. cbv iota.
      destruct l as [|v l]; [reflexivity|].
      rewrite (items_as (v :: l) ltac:(discriminate) Hb n r) by lia.
      inversion Hl as [|x y H1 H2]; subst x y. destruct (text_head v H1) as (c & t & Et & Ho).
      destruct (join_head text v l) as [t' Ej]. rewrite Ej, Et. cbn [app].
      rewrite skip_opening by exact Ho.
      destruct (opening_facts c Ho) as (_ & H93 & _ & _).
      destruct (N.eq_dec c 93) as [E|E]; [contradiction|].
      destruct c as [|p]; [reflexivity|].
      do 8 (destruct p as [p|p|]; try reflexivity; try contradiction).
    - rewrite cost_obj in Hn. destruct n as [|n]; [lia|].
      pose proof (numbers_obj num_text num_value l Hv) as Hl. pose proof (combine_forall _ _ l IH Hl) as Hb.
      cbn [json_with]. rewrite <- !app_assoc.
      change (map (fun kv => quoted (fst kv) ++ lit ":" ++ text (snd kv)) l) with (map entry_text l).
      change (lit "{" ++ join (lit ",") (map entry_text l) ++ lit "}" ++ r)
        with (123%N :: (join (lit ",") (map entry_text l) ++ 125%N :: r)).
      rewrite read_value_S. change (skip_blanks (123%N :: ?x)) with (123%N :: x).
      change (N.eqb 123 34) with false. change (N.eqb 123 91) with false. change (N.eqb 123 123) with true. cbv iota.
      destruct l as [|kv l]; [reflexivity|].
      rewrite (members_as (kv :: l) ltac:(discriminate) Hb n r) by lia.
      assert (Hq : exists t, join (lit ",") (map entry_text (kv :: l)) = 34%N :: t).
      { destruct l as [|y l]; eexists; reflexivity. }
      destruct Hq as [t Eq]. rewrite Eq. reflexivity.
  Qed.
  Lemma costs_text' l : Forall (fun v => cost v < 2 * length (text v)) l ->
    costs l <= 2 * fold_right (fun x n => length x + n) 0 (map text l).
  Proof.
    induction 1 as [|v l H1 H2 IH]; [cbn; lia|]. cbn [costs map fold_right]. lia.
  Qed.
  Lemma cost_text' v : numbers num_fine v -> cost v < 2 * length (text v).
  Proof.
    induction v as [|b|q|s|l IH|l IH] using jv_ind'; intros Hv.
    - cbn. lia.
    - destruct b; cbn; lia.
    - cbn [numbers] in Hv. destruct Hv as (Hne & _). cbn [cost json_with].
      destruct (num_text q); [contradiction|cbn; lia].
    - cbn [cost json_with]. unfold quoted. rewrite app_length. cbn. lia.
    - rewrite cost_arr. pose proof (combine_forall _ _ l IH (numbers_arr num_text num_value l Hv)) as Hb.
      pose proof (costs_text' l Hb) as H1. pose proof (join_length (map text l)) as H2.
      cbn [json_with]. rewrite !app_length. change (length (lit "[")) with 1. lia.
    - rewrite cost_obj. pose proof (combine_forall _ _ l IH (numbers_obj num_text num_value l Hv)) as Hb.
      cbn [json_with]. change (map (fun kv => quoted (fst kv) ++ lit ":" ++ text (snd kv)) l) with (map entry_text l).
      pose proof (join_length (map entry_text l)) as H2. rewrite !app_length. change (length (lit "{")) with 1.
      assert (H1 : costs (map snd l) <= 2 * fold_right (fun x n => length x + n) 0 (map entry_text l)).
      { clear -Hb. induction Hb as [|[k v] l H1 H2 IH]; [cbn; lia|]. cbn [snd] in H1. cbn [costs map fold_right snd].
        assert (length (text v) <= length (entry_text (k, v))) by (unfold entry_text; cbn [fst snd]; rewrite !app_length; lia).
        lia. }
      lia.
  Qed.
  Lemma script_as v : numbers num_fine v -> script_value num_value (script_with quoted num_text v) = Some (as_read v).
  Proof.
    intros Hv. unfold script_value, script_with.
    change (skip_blanks ([10%N] ++ lit "      window.grParam = " ++ text v ++ [10%N] ++ lit "    "))
      with (lit "window.grParam" ++ lit " = " ++ text v ++ [10%N] ++ lit "    ").
    change (strip (lit "window.grParam") (lit "window.grParam" ++ lit " = " ++ text v ++ [10%N] ++ lit "    "))
      with (Some (lit " = " ++ text v ++ [10%N] ++ lit "    ")).
    cbv iota beta.
    change (skip_blanks (lit " = " ++ text v ++ [10%N] ++ lit "    "))
      with (61%N :: 32%N :: text v ++ [10%N] ++ lit "    ").
    cbv iota.
    pose proof (reads_as_all v Hv) as Hr. pose proof (cost_text' v Hv) as Hc.
    pose proof (Hr (S (2 * length (32%N :: text v ++ [10%N] ++ lit "    "))) ([10%N] ++ lit "    ")) as H1.
    rewrite read_value_S in H1. rewrite read_value_S.
    change (skip_blanks (32%N :: text v ++ [10%N] ++ lit "    ")) with (skip_blanks (text v ++ [10%N] ++ lit "    ")).
    rewrite H1; [reflexivity| |reflexivity].
    cbn [length]. rewrite app_length. lia.
  Qed.
  (** ** No character of the text ends the script *)
  Hypothesis SAFE : forall s, Forall harmless (str_in s).
  Lemma harmless_quoted s : Forall harmless (quoted s).
  Proof.
    unfold quoted. apply Forall_app; split; [apply harmless_lit; reflexivity|]. apply Forall_app; split; [apply SAFE|apply harmless_lit; reflexivity].
  Qed.
  Lemma text_safe v : numbers num_fine v -> Forall harmless (text v).
  Proof.
    induction v as [|b|q|s|l IH|l IH] using jv_ind'; intros Hv.
    - apply harmless_lit; reflexivity.
    - destruct b; apply harmless_lit; reflexivity.
    - destruct Hv as (_ & Hf & _). cbn [json_with]. apply Forall_impl with (2 := Hf). intros c. apply num_char_harmless.
    - apply harmless_quoted.
    - cbn [json_with]. apply Forall_app; split; [apply harmless_lit; reflexivity|].
      apply Forall_app; split; [|apply harmless_lit; reflexivity]. apply harmless_join.
      apply Forall_map. apply (combine_forall _ _ l IH (numbers_arr num_text num_value l Hv)).
    - cbn [json_with]. apply Forall_app; split; [apply harmless_lit; reflexivity|].
      apply Forall_app; split; [|apply harmless_lit; reflexivity]. apply harmless_join.
      apply Forall_map. pose proof (combine_forall _ _ l IH (numbers_obj num_text num_value l Hv)) as Hb.
      apply Forall_impl with (2 := Hb). intros kv H. apply Forall_app; split; [apply harmless_quoted|].
      apply Forall_app; split; [apply harmless_lit; reflexivity|exact H].
  Qed.
End Values.

(** ** The text that the bytes of a report are *)
Definition step_text (e : list N * option N) : gostring := match snd e with None => json_step e | Some c => json_char c end.
Definition text_in (s : list N) : gostring := flat_map step_text (scan s).
Lemma ascii_bytes : forall s, forallb (fun c => N.ltb c 128) s = true -> text_bytes s s.
Proof.
  intros s H. induction s as [|c s IH]; [constructor|]. cbn [forallb] in H. apply andb_true_iff in H as [H1 H2]. apply N.ltb_lt in H1.
  exact (tb_cons c [c] s s (cb_one c H1) (IH H2)).
Qed.
Lemma json_char_ascii : forall c, (c < 128)%N -> text_bytes (json_char c) (json_char c).
Proof.
  intros c L. apply ascii_bytes. apply (below_ind 128 (fun c => forallb (fun c => N.ltb c 128) (json_char c))); [vm_compute; reflexivity|exact L].
Qed.
Lemma text_in_bytes : forall s, text_bytes (text_in s) (flat_map json_step (scan s)).
Proof.
  intros s. unfold text_in. pose proof (scan_scanned s) as H. induction H as [|c b bs l H1 H2 IH|b bs l H1 H2 IH]; cbn [flat_map].
  - constructor.
  - apply text_bytes_app; [|exact IH]. unfold step_text, json_step. cbn [snd]. destruct (N.ltb_spec c 128) as [L|L]; cbn [orb]; [now apply json_char_ascii|].
    destruct (N.eqb_spec c 8232) as [-> | N1]; [apply ascii_bytes; vm_compute; reflexivity|]. destruct (N.eqb_spec c 8233) as [-> | N2]; [apply ascii_bytes; vm_compute; reflexivity|].
    cbn [orb]. assert (json_char c = [c]) as ->.
    { unfold json_char. assert (forall k, (k < 128)%N -> N.eqb c k = false) as NE by (intros k K; apply N.eqb_neq; lia).
      rewrite !NE by lia. apply N.eqb_neq in N1, N2. rewrite N1, N2. destruct (N.ltb_spec c 32); [lia|]. reflexivity. }
    rewrite <- (app_nil_r b). constructor; [exact H1|constructor].
  - apply text_bytes_app; [|exact IH]. apply ascii_bytes. vm_compute. reflexivity.
Qed.
Lemma text_in_read : forall s r, read_string (text_in s ++ 34%N :: r) = Some (decode s, r).
Proof.
  intros s r. unfold text_in, decode. induction (scan s) as [|[b [c|]] l IH]; cbn [flat_map map snd]; [reflexivity| |]; rewrite <- app_assoc.
  - change (step_text (b, Some c)) with (json_char c). rewrite read_json_char, IH. reflexivity.
  - match goal with |- read_string (step_text (b, None) ++ ?x) = _ => change (read_string (step_text (b, None) ++ x)) with (match read_string x with Some (t, r) => Some (65533%N :: t, r) | None => None end) end.
    rewrite IH. reflexivity.
Qed.
Lemma text_in_safe : forall s, Forall harmless (text_in s).
Proof.
  intros s. unfold text_in. induction (scan s) as [|[b [c|]] l IH]; cbn [flat_map]; [constructor| |]; (apply Forall_app; split; [|exact IH]).
  - apply harmless_char.
  - apply harmless_lit. vm_compute. reflexivity.
Qed.
Lemma join_bytes : forall l m, Forall2 text_bytes l m -> text_bytes (join (lit ",") l) (join (lit ",") m).
Proof.
  intros l m H. induction H as [|x y l m H1 H2 IH]; [constructor|]. destruct H2 as [|x' y' l m H2 H3]; [exact H1|].
  change (join (lit ",") (x :: x' :: l)) with (x ++ lit "," ++ join (lit ",") (x' :: l)). change (join (lit ",") (y :: y' :: m)) with (y ++ lit "," ++ join (lit ",") (y' :: m)).
  apply text_bytes_app; [exact H1|]. apply text_bytes_app; [apply ascii_bytes; reflexivity|exact IH].
Qed.
Lemma num_char_ascii : forall t, Forall (fun c => num_char c = true) t -> text_bytes t t.
Proof.
  intros t H. apply ascii_bytes. apply forallb_forall. intros c I. rewrite Forall_forall in H. specialize (H c I). unfold num_char in H.
  apply N.ltb_lt. rewrite !orb_true_iff, !andb_true_iff, !N.eqb_eq, !N.leb_le in H. lia.
Qed.
Lemma with_bytes : forall num_text num_value v, numbers (number_fine num_text num_value) v ->
  text_bytes (json_with (quoted text_in) num_text v) (json_with json_string_bytes num_text v).
Proof.
  intros num_text num_value v.
  assert (forall s, text_bytes (quoted text_in s) (json_string_bytes s)) as STR.
  { intros s. unfold quoted, json_string_bytes. apply text_bytes_app; [apply ascii_bytes; reflexivity|]. apply text_bytes_app; [apply text_in_bytes|apply ascii_bytes; reflexivity]. }
  assert (forall (f g : jv -> gostring) l, Forall (fun v => text_bytes (f v) (g v)) l -> Forall2 text_bytes (map f l) (map g l)) as FA.
  { intros f g l H. induction H; cbn [map]; now constructor. }
  induction v as [|b|q|s|l IH|l IH] using jv_ind'; intros Hv; cbn [json_with].
  - apply ascii_bytes. reflexivity.
  - destruct b; apply ascii_bytes; reflexivity.
  - destruct Hv as (_ & Hf & _). now apply num_char_ascii.
  - apply STR.
  - apply text_bytes_app; [apply ascii_bytes; reflexivity|]. apply text_bytes_app; [|apply ascii_bytes; reflexivity]. apply join_bytes. apply FA.
    exact (combine_forall _ _ l IH (numbers_arr num_text num_value l Hv)).
  - apply text_bytes_app; [apply ascii_bytes; reflexivity|]. apply text_bytes_app; [|apply ascii_bytes; reflexivity]. apply join_bytes.
    pose proof (combine_forall _ _ l IH (numbers_obj num_text num_value l Hv)) as Hb. clear IH Hv.
    induction Hb as [|kv l H1 H2 IHl]; cbn [map]; constructor; [|exact IHl]. apply text_bytes_app; [apply STR|]. apply text_bytes_app; [apply ascii_bytes; reflexivity|exact H1].
Qed.
Lemma as_read_repaired : forall v, repaired_value v (as_read decode v).
Proof.
  intros v. induction v as [|b|q|s|l IH|l IH] using jv_ind'; cbn [as_read]; constructor.
  - apply decode_repaired.
  - induction IH; cbn [map]; now constructor.
  - induction IH as [|kv l H1 H2 IHl]; cbn [map]; constructor; [|exact IHl]. cbn [fst snd]. split; [apply decode_repaired|exact H1].
Qed.
(** ** Data of texts *)
Lemma text_in_text : forall t s, text_bytes t s -> text_in s = flat_map json_char t.
Proof.
  intros t s H. unfold text_in. pose proof (scan_scanned s) as K. revert t H. induction K as [|c b bs l H1 H2 IH|b bs l H1 H2 IH]; intros t H.
  - now rewrite (text_bytes_nil _ H).
  - assert (text_bytes [c] b) as CB by (rewrite <- (app_nil_r b); constructor; [exact H1|constructor]).
    destruct (text_bytes_prefix _ _ CB _ _ H) as (u & -> & U). cbn [flat_map app]. now rewrite (IH u U).
  - exfalso. remember (b :: bs) as q eqn:E. destruct H as [|c x t y C1 C2]; [discriminate|]. elim (H1 c x y C1). now symmetry.
Qed.
Lemma texts_with : forall num_text t v, value_bytes t v -> json_with (quoted text_in) num_text v = json_text num_text t.
Proof.
  intros num_text t. assert (forall t s, text_bytes t s -> quoted text_in s = json_string t) as STR.
  { intros u s H. unfold quoted, json_string. now rewrite (text_in_text _ _ H). }
  induction t as [|b|q|s|l IH|l IH] using jv_ind'; intros v H; inversion H; subst; cbn [json_with json_text]; try reflexivity.
  - now apply STR.
  - f_equal. f_equal. f_equal. match goal with F : Forall2 value_bytes _ _ |- _ => rename F into F2 end. clear H. revert IH. induction F2 as [|x y l l' H1 H2 IHl]; intros IH; [reflexivity|].
    inversion IH; subst. cbn [map]. f_equal; auto.
  - f_equal. f_equal. f_equal. match goal with F : Forall2 _ l l' |- _ => rename F into F2 end. clear H. revert IH. induction F2 as [|x y l l' [H1 H1'] H2 IHl]; intros IH; [reflexivity|].
    inversion IH; subst. cbn [map]. f_equal; [|auto]. rewrite (STR _ _ H1). f_equal. f_equal. auto.
Qed.
Lemma value_bytes_read : forall t v, value_bytes t v -> as_read decode v = t.
Proof.
  intros t. assert (forall t s, text_bytes t s -> decode s = t) as STR.
  { intros u s H. exact (repaired_unique _ _ _ (decode_repaired s) (text_repaired _ _ H)). }
  induction t as [|b|q|s|l IH|l IH] using jv_ind'; intros v H; inversion H; subst; cbn [as_read]; try reflexivity.
  - f_equal. auto.
  - f_equal. match goal with F : Forall2 value_bytes _ _ |- _ => rename F into F2 end. clear H. revert IH. induction F2 as [|x y l l' H1 H2 IHl]; intros IH; [reflexivity|].
    inversion IH; subst. cbn [map]. f_equal; auto.
  - f_equal. match goal with F : Forall2 _ l l' |- _ => rename F into F2 end. clear H. revert IH. induction F2 as [|x y l l' [H1 H1'] H2 IHl]; intros IH; [reflexivity|].
    inversion IH; subst. cbn [map]. f_equal; [|auto]. rewrite (STR _ _ H1). destruct x. cbn [fst snd] in *. f_equal. auto.
Qed.
Lemma value_bytes_fun : forall t v w, value_bytes t v -> value_bytes t w -> v = w.
Proof.
  intros t. assert (forall (t : gostring) b d, text_bytes t b -> text_bytes t d -> b = d) as STR.
  { intros u b d H K. apply text_bytes_scalar in H as [_ ->], K as [_ ->]. reflexivity. }
  induction t as [|b|q|s|l IH|l IH] using jv_ind'; intros v w H K; inversion H; inversion K; subst; try reflexivity.
  - f_equal. eauto.
  - f_equal. clear H K. match goal with F : Forall2 value_bytes l ?a, G : Forall2 value_bytes l ?b |- ?a = ?b => revert IH G; generalize b; induction F as [|x y l l' H1 H2 IHl]; intros m IH FG end; inversion FG; subst; [reflexivity|].
    inversion IH; subst. f_equal; auto.
  - f_equal. clear H K. match goal with F : Forall2 _ l ?a, G : Forall2 _ l ?b |- ?a = ?b => revert IH G; generalize b; induction F as [|x y l l' [H1 H1'] H2 IHl]; intros m IH FG end; inversion FG as [|x0 z l0 m' [G1 G1'] G2]; subst; [reflexivity|].
    inversion IH; subst. f_equal; [|auto]. destruct y, z. cbn [fst snd] in *. f_equal; eauto.
Qed.
