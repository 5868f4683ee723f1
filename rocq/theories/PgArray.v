(** Arrays of texts as PostgreSQL writes them (array_out) and as pq.StringArray.Scan reads
    them.  Both restated, neither is part of the repository.  Simplification: one dimension,
    no NULL among the elements; the messages are cut to their first part.
    None of the definitions in this file has lines in /repo of its own. *)
From Coq Require Import String List NArith ZArith Bool Lia Arith.
From Verif Require Import Base.
Import ListNotations.

(** array_out: an element is quoted when empty, when it reads NULL, or for one of these
    characters *)
Definition special (c : rune) : bool :=
  N.eqb c 123 || N.eqb c 125 || N.eqb c 34 || N.eqb c 92 || N.eqb c 44 || is_space c.
Definition upper (c : rune) : rune := if is_lower c then (c - 32)%N else c.
Definition needs_quotes (s : gostring) : bool :=
  match s with [] => true | _ => seqb (map upper s) (lit "NULL") || existsb special s end.
Fixpoint escaped (s : gostring) : gostring :=
  match s with
  | [] => []
  | c :: s' => if N.eqb c 34 || N.eqb c 92 then 92%N :: c :: escaped s' else c :: escaped s'
  end.
Definition element_out (s : gostring) : gostring := if needs_quotes s then 34%N :: escaped s ++ [34%N] else s.
Definition array_out (l : list gostring) : gostring := 123%N :: join (lit ",") (map element_out l) ++ [125%N].

(** lib/pq array.go parseArray and StringArray.scanBytes *)
Inductive array_state := AStart | ABare (acc : gostring) | AQuoted (acc : gostring) (escape : bool) | AAfter | ADone.
Definition parse_message : gostring := lit "pq: unable to parse array".
Definition null_message : gostring := lit "pq: parsing array element index: cannot convert nil to string".
Fixpoint array_elements (st : array_state) (elems : list gostring) (s : gostring) : outcome (list gostring) :=
  match s with
  | [] => match st with ADone => Ok elems | _ => Err parse_message end
  | c :: s' =>
      match st with
      | AStart =>
          if N.eqb c 34 then array_elements (AQuoted [] false) elems s'
          else if N.eqb c 123 || N.eqb c 125 || N.eqb c 44 then Err parse_message
          else array_elements (ABare [c]) elems s'
      | ABare acc =>
          if N.eqb c 44 || N.eqb c 125 then
            if seqb acc (lit "NULL") then Err null_message
            else array_elements (if N.eqb c 44 then AStart else ADone) (elems ++ [acc]) s'
          else array_elements (ABare (acc ++ [c])) elems s'
      | AQuoted acc true => array_elements (AQuoted (acc ++ [c]) false) elems s'
      | AQuoted acc false =>
          if N.eqb c 92 then array_elements (AQuoted acc true) elems s'
          else if N.eqb c 34 then array_elements AAfter (elems ++ [acc]) s'
          else array_elements (AQuoted (acc ++ [c]) false) elems s'
      | AAfter =>
          if N.eqb c 44 then array_elements AStart elems s'
          else if N.eqb c 125 then array_elements ADone elems s'
          else Err parse_message
      | ADone => Err parse_message
      end
  end.
Definition array_in (s : gostring) : outcome (list gostring) :=
  match s with
  | 123%N :: [125%N] => Ok []
  | 123%N :: s' => array_elements AStart [] s'
  | _ => Err parse_message
  end.

Lemma quoted_in : forall s acc elems r, array_elements (AQuoted acc false) elems (escaped s ++ 34%N :: r) = array_elements AAfter (elems ++ [acc ++ s]) r.
Proof.
  induction s as [|c s IH]; intros acc elems r; cbn [escaped app].
  - cbn [array_elements]. change (N.eqb 34 92) with false. change (N.eqb 34 34) with true. cbv iota. now rewrite app_nil_r.
  - destruct (N.eqb c 34 || N.eqb c 92) eqn:E; cbn [app array_elements].
    + change (N.eqb 92 92) with true. cbv iota. rewrite IH, <- app_assoc. reflexivity.
    + apply orb_false_iff in E. destruct E as [E1 E2]. rewrite E1, E2, IH, <- app_assoc. reflexivity.
Qed.
Lemma bare_in : forall s acc elems, existsb special s = false ->
    forall c r, c = 44%N \/ c = 125%N -> array_elements (ABare acc) elems (s ++ c :: r) = array_elements (ABare (acc ++ s)) elems (c :: r).
Proof.
  induction s as [|x s IH]; intros acc elems HS c r HC; cbn [app]; [now rewrite app_nil_r|].
  cbn [existsb] in HS. apply orb_false_iff in HS. destruct HS as [H1 H2].
  assert (HX : N.eqb x 44 || N.eqb x 125 = false) by (unfold special in H1; destruct (N.eqb x 44), (N.eqb x 125); rewrite ?orb_true_r in H1; auto).
  transitivity (array_elements (ABare (acc ++ [x])) elems (s ++ c :: r)); [cbn [array_elements]; now rewrite HX|].
  rewrite (IH _ _ H2 _ _ HC), <- app_assoc. reflexivity.
Qed.
Lemma element_in : forall s elems c r, c = 44%N \/ c = 125%N ->
    array_elements AStart elems (element_out s ++ c :: r) = array_elements (if N.eqb c 44 then AStart else ADone) (elems ++ [s]) r.
Proof.
  intros s elems c r HC. unfold element_out. destruct (needs_quotes s) eqn:EQ.
  - change ((34%N :: escaped s ++ [34%N]) ++ c :: r) with (34%N :: (escaped s ++ [34%N]) ++ c :: r). rewrite <- app_assoc. cbn [app].
    change (array_elements AStart elems (34%N :: escaped s ++ 34%N :: c :: r)) with (array_elements (AQuoted [] false) elems (escaped s ++ 34%N :: c :: r)).
    rewrite quoted_in. cbn [app]. destruct HC as [->| ->]; reflexivity.
  - destruct s as [|x s]; [discriminate|]. unfold needs_quotes in EQ. apply orb_false_iff in EQ. destruct EQ as [E1 E2].
    pose proof E2 as E2'. cbn [existsb] in E2. apply orb_false_iff in E2. destruct E2 as [E2 E3].
    assert (HX : N.eqb x 34 = false /\ N.eqb x 123 || N.eqb x 125 || N.eqb x 44 = false).
    { unfold special in E2. destruct (N.eqb x 123), (N.eqb x 125), (N.eqb x 34), (N.eqb x 44); rewrite ?orb_true_r in E2; cbn in E2; auto; discriminate. }
    destruct HX as [H1 H2]. cbn [app].
    transitivity (array_elements (ABare [x]) elems (s ++ c :: r)); [cbn [array_elements]; now rewrite H1, H2|].
    rewrite (bare_in _ _ _ E3 _ _ HC). cbn [app].
    assert (HNull : seqb (x :: s) (lit "NULL") = false) by (apply seqb_neq; intros E; rewrite E in E1; discriminate).
    cbn [array_elements]. destruct HC as [->| ->]; cbn [N.eqb orb]; rewrite HNull; reflexivity.
Qed.
Lemma elements_in : forall l elems, l <> [] ->
    array_elements AStart elems (join (lit ",") (map element_out l) ++ [125%N]) = Ok (elems ++ l).
Proof.
  induction l as [|s l IH]; intros elems HN; [congruence|]. destruct l as [|s' l].
  - cbn [map join]. rewrite element_in by auto. reflexivity.
  - change (join (lit ",") (map element_out (s :: s' :: l))) with (element_out s ++ lit "," ++ join (lit ",") (map element_out (s' :: l))).
    rewrite <- !app_assoc. change (lit "," ++ ?z) with (44%N :: z). rewrite element_in by auto. change (N.eqb 44 44) with true. cbv iota.
    rewrite IH by discriminate. now rewrite <- app_assoc.
Qed.
Theorem array_read_back : forall l, array_in (array_out l) = Ok l.
Proof.
  intros l. destruct l as [|s l]; [reflexivity|]. unfold array_out.
  assert (HE : forall z, z <> [] -> array_in (123%N :: z ++ [125%N]) = array_elements AStart [] (z ++ [125%N])).
  { intros z HZ. destruct z as [|a [|b z]]; [congruence| |]; unfold array_in; cbn [app]; [|].
    - destruct a as [|a]; [reflexivity|]. repeat (destruct a as [a|a|]; try reflexivity).
    - destruct a as [|a]; [reflexivity|]. repeat (destruct a as [a|a|]; try reflexivity). }
  rewrite HE; [now rewrite elements_in|].
  intros E. assert (HL : forall x, element_out x <> []).
  { intros x. unfold element_out, needs_quotes. destruct x; [discriminate|]. destruct (_ || _); discriminate. }
  destruct l as [|s' l]; cbn [map join] in E; [exact (HL _ E)|].
  apply app_eq_nil in E. destruct E as [E _]. exact (HL _ E).
Qed.
Example array_read_back_ex :
  array_out [lit "a"; lit "b c"; lit "null"; []] = lit "{a,""b c"",""null"",""""}" /\ array_in (lit "{a,NULL}") = Err null_message.
Proof. split; vm_compute; reflexivity. Qed.
Print Assumptions array_read_back.
