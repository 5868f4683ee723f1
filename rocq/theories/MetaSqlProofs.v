(** The metadata queries as the server reads them. *)
From Coq Require Import String List NArith ZArith Bool Lia Arith Permutation.
From Verif Require Import Base Dec IndexText IndexBuild TableFields Existing SqlServer MetaSql Hasura.
Import ListNotations.

(** * The queries *)
Definition e_ (t c : string) : expr := ECol (of_string t) (of_string c).
Definition t_ (n a : string) : table_ref := mk_tr (of_string n) (of_string a).
Definition my_column_query (schema : expr) (tables : list expr) : query :=
  mk_q [(EBare (lit "column_name"), lit "COLUMN_NAME"); (EBare (lit "column_key"), lit "COLUMN_KEY"); (EBare (lit "table_name"), lit "TABLE_NAME")]
    (t_ "information_schema.columns" "columns") []
    (EAnd (EEq (EBare (lit "table_schema")) schema) (EIn (EBare (lit "table_name")) tables))
    [EBare (lit "table_name"); EBare (lit "ordinal_position")].
Definition my_index_query (schema : expr) (tables : list expr) : query :=
  mk_q [(EBare (lit "table_name"), lit "TABLE_NAME"); (EBare (lit "index_name"), lit "INDEX_NAME"); (EBare (lit "column_name"), lit "COLUMN_NAME")]
    (t_ "information_schema.statistics" "statistics") []
    (EAnd (EEq (EBare (lit "table_schema")) schema) (EIn (EBare (lit "table_name")) tables))
    [EBare (lit "table_name"); EBare (lit "index_name"); EBare (lit "seq_in_index")].
Definition pg_column_query (schema : expr) (tables : list expr) : query :=
  mk_q [(e_ "pg_class" "relname", lit "table_name"); (e_ "pg_attribute" "attname", lit "column_name");
        (ECoalesce (e_ "pg_index" "indisprimary") (EBool false), lit "is_pk")]
    (t_ "pg_class" "pg_class")
    [(false, t_ "pg_attribute" "pg_attribute", EEq (e_ "pg_attribute" "attrelid") (e_ "pg_class" "oid"));
     (false, t_ "pg_namespace" "pg_namespace", EEq (e_ "pg_class" "relnamespace") (e_ "pg_namespace" "oid"));
     (true, t_ "pg_index" "pg_index",
        EAnd (EEq (e_ "pg_class" "oid") (e_ "pg_index" "indrelid")) (EAny (e_ "pg_attribute" "attnum") (e_ "pg_index" "indkey")))]
    (EAnd (EEq (e_ "pg_namespace" "nspname") schema) (EAnd (EIn (e_ "pg_class" "relname") tables)
       (EAnd (EEq (e_ "pg_class" "relkind") (EText (lit "r"))) (EGe (e_ "pg_attribute" "attnum") (EInt 0)))))
    [e_ "pg_class" "relname"; e_ "pg_attribute" "attnum"].
Definition index_items : list (expr * gostring) :=
  [(e_ "t" "relname", lit "table_name"); (EIndexDefs (e_ "pg_index" "indexrelid") (e_ "pg_index" "indkey"), lit "column_names")].
Definition pg_index_query (its : list (expr * gostring)) (schema : expr) (tables : list expr) : query :=
  mk_q its (t_ "pg_index" "pg_index")
    [(false, t_ "pg_class" "i", EEq (e_ "pg_index" "indexrelid") (e_ "i" "oid"));
     (false, t_ "pg_class" "t", EEq (e_ "pg_index" "indrelid") (e_ "t" "oid"));
     (false, t_ "pg_namespace" "pg_namespace", EEq (e_ "i" "relnamespace") (e_ "pg_namespace" "oid"))]
    (EAnd (EEq (e_ "pg_namespace" "nspname") schema) (EIn (e_ "t" "relname") tables))
    [e_ "t" "relname"; e_ "i" "relname"].

(** * Reading a list *)
Inductive simple : expr -> tok -> Prop :=
| simple_arg : forall n, simple (EArg n) (TMark n)
| simple_text : forall s, simple (EText s) (TStr s).
Inductive listed : list expr -> list tok -> Prop :=
| listed_one : forall e t, simple e t -> listed [e] [t; TSym 41]
| listed_more : forall e t es ts, simple e t -> listed es ts -> listed (e :: es) (t :: TSym 44 :: ts).
Lemma in_list_listed : forall es ts r, listed es ts -> in_list (ts ++ r) = Some (es, r).
Proof.
  intros es ts r H. induction H as [e t Hs|e t es ts Hs H IH]; destruct Hs; cbn [app in_list]; try reflexivity; now rewrite IH.
Qed.
Opaque in_list.

(** * The text of the templates *)
Definition upto (n : nat) (s : gostring) : gostring := firstn n s.
(** position of the k-th question mark *)
Fixpoint mark_pos (k : nat) (s : gostring) : nat :=
  match s with
  | [] => 0
  | c :: s' => if N.eqb c 63 then match k with 0 => 0 | S k' => S (mark_pos k' s') end else S (mark_pos k s')
  end.
Definition part1 (t : gostring) : gostring := firstn (mark_pos 0 t) t.
Definition part2 (t : gostring) : gostring := firstn (mark_pos 1 t - S (mark_pos 0 t)) (skipn (S (mark_pos 0 t)) t).
Definition part3 (t : gostring) : gostring := skipn (S (mark_pos 1 t)) t.

Lemma expand_no_mark : forall s q args, forallb (fun c => negb (N.eqb c 63)) s = true ->
    expand_marks (s ++ q) args = obind (expand_marks q args) (fun r => Ok (s ++ r)).
Proof.
  induction s as [|c s IH]; intros q args H; cbn [app expand_marks].
  - destruct (expand_marks q args); reflexivity.
  - cbn [forallb] in H. apply andb_true_iff in H. destruct H as [H1 H2]. apply negb_true_iff in H1. rewrite H1, (IH _ _ H2).
    destruct (expand_marks q args); reflexivity.
Qed.
Definition two_marks (t : gostring) : Prop :=
  t = part1 t ++ [63%N] ++ part2 t ++ [63%N] ++ part3 t /\
  forallb (fun c => negb (N.eqb c 63)) (part1 t ++ part2 t ++ part3 t) = true.
Lemma sqlx_in_two : forall t schema tables, two_marks t -> tables <> [] ->
    sqlx_in t [One schema; Many tables] =
    Ok (part1 t ++ lit "?" ++ part2 t ++ join (lit ", ") (map (fun _ => lit "?") tables) ++ part3 t, schema :: tables).
Proof.
  intros t schema tables [HT HM] HN. unfold sqlx_in. destruct tables as [|x tables]; [congruence|].
  cbn [existsb is_empty_list orb flat_map bound app]. rewrite app_nil_r.
  rewrite !forallb_app, !andb_true_iff in HM. destruct HM as (H1 & H2 & H3).
  rewrite HT at 1. rewrite (expand_no_mark _ _ _ H1). cbn [app expand_marks N.eqb].
  change (N.eqb 63 63) with true. cbv iota. rewrite (expand_no_mark _ _ _ H2). cbn [app expand_marks].
  change (N.eqb 63 63) with true. cbv iota.
  assert (H3' : expand_marks (part3 t) [] = Ok (part3 t)).
  { rewrite <- (app_nil_r (part3 t)) at 1. rewrite (expand_no_mark _ _ _ H3). cbn [expand_marks obind]. now rewrite app_nil_r. }
  rewrite H3'. cbn [obind bound map join]. reflexivity.
Qed.
Lemma templates_two_marks : two_marks mysql_column_template /\ two_marks mysql_index_template /\
    two_marks pg_column_template /\ two_marks pg_index_template.
Proof. repeat split; vm_compute; reflexivity. Qed.

Lemma rebind_no_mark : forall s q n, forallb (fun c => negb (N.eqb c 63)) s = true -> rebind n (s ++ q) = s ++ rebind n q.
Proof.
  induction s as [|c s IH]; intros q n H; cbn [app rebind]; auto.
  cbn [forallb] in H. apply andb_true_iff in H. destruct H as [H1 H2]. apply negb_true_iff in H1. rewrite H1, IH; auto.
Qed.
Definition mark_n (n : N) : gostring := 36%N :: dec_of_N n.
Fixpoint marks_from {A} (n : N) (l : list A) : list gostring :=
  match l with [] => [] | _ :: l' => mark_n n :: marks_from (n + 1) l' end.
Lemma join_two : forall sep a l, l <> [] -> join sep (a :: l) = a ++ sep ++ join sep l.
Proof. intros sep a [|b l] H; [congruence|reflexivity]. Qed.
Lemma rebind_marks : forall (l : list gostring) n q,
    rebind n (join (lit ", ") (map (fun _ => lit "?") l) ++ q) =
    join (lit ", ") (marks_from n l) ++ rebind (n + N.of_nat (length l)) q.
Proof.
  induction l as [|x l IH]; intros n q.
  - cbn [map join marks_from app length]. now rewrite N.add_0_r.
  - destruct l as [|y l].
    + cbn [map join marks_from length]. change (lit "?" ++ q) with (63%N :: q). cbn [rebind]. change (N.eqb 63 63) with true. cbv iota. reflexivity.
    + replace (n + N.of_nat (length (x :: y :: l)))%N with (n + 1 + N.of_nat (length (y :: l)))%N by (cbn [length]; lia).
      change (map (fun _ => lit "?") (x :: y :: l)) with (lit "?" :: map (fun _ : gostring => lit "?") (y :: l)).
      change (marks_from n (x :: y :: l)) with (mark_n n :: marks_from (n + 1) (y :: l)).
      rewrite !join_two by (cbn; discriminate). rewrite <- !app_assoc.
      change (lit "?" ++ ?z) with (63%N :: z). cbn [rebind]. change (N.eqb 63 63) with true. cbv iota.
      rewrite (rebind_no_mark (lit ", ")) by reflexivity. rewrite IH. reflexivity.
Qed.

(** * Words, marks and quoted texts *)
Lemma lex_word : forall s m w r, forallb (fun c => is_word c || N.eqb c 36) s = true -> lex m w None (s ++ r) = lex m (w ++ s) None r.
Proof.
  induction s as [|c s IH]; intros m w r H; cbn [app]; [now rewrite app_nil_r|].
  cbn [forallb] in H. apply andb_true_iff in H. destruct H as [H1 H2]. cbn [lex]. rewrite H1, (IH _ _ _ H2), <- app_assoc. reflexivity.
Qed.
Lemma lex_quoted : forall s m acc r, forallb (fun c => negb (N.eqb c 39)) s = true ->
    lex m [] (Some acc) (s ++ 39%N :: r) = TStr (acc ++ s) :: lex m [] None r.
Proof.
  induction s as [|c s IH]; intros m acc r H; cbn [app lex].
  - change (N.eqb 39 39) with true. cbv iota. now rewrite app_nil_r.
  - cbn [forallb] in H. apply andb_true_iff in H. destruct H as [H1 H2]. apply negb_true_iff in H1. rewrite H1, (IH _ _ _ H2), <- app_assoc. reflexivity.
Qed.
Lemma lex_mark_n : forall n m c r, c = 41%N \/ c = 44%N \/ c = 32%N -> lex m [] None (mark_n n ++ c :: r) = TMark n :: lex m [] None (c :: r).
Proof.
  intros n m c r HC. rewrite lex_word.
  - unfold mark_n. cbn [app]. assert (HV : classify (36%N :: dec_of_N n) = TMark n) by (cbn [classify]; change (N.eqb 36 36) with true; cbv iota; now rewrite dec_of_N_val).
    assert (HE : lex m (36%N :: dec_of_N n) None (c :: r) = TMark n :: lex m [] None (c :: r)).
    { rewrite <- HV. destruct HC as [->|[->| ->]]; reflexivity. }
    exact HE.
  - unfold mark_n. cbn [forallb]. change (is_word 36 || N.eqb 36 36) with true. cbn [andb].
    pose proof (dec_of_N_digits n) as HD. rewrite forallb_forall in HD |- *. intros x HX. unfold is_word. now rewrite (HD _ HX).
Qed.
Lemma lex_quote : forall s m r, forallb (fun c => negb (N.eqb c 39)) s = true -> lex m [] None (quote s ++ r) = TStr s :: lex m [] None r.
Proof.
  intros s m r H. unfold quote. cbn [app]. rewrite <- app_assoc. cbn [app].
  change (lex m [] None (39%N :: s ++ 39%N :: r)) with (lex m [] (Some []) (s ++ 39%N :: r)). now rewrite lex_quoted.
Qed.

Fixpoint args_from {A} (n : N) (l : list A) : list expr :=
  match l with [] => [] | _ :: l' => EArg n :: args_from (n + 1) l' end.
Lemma lex_question_marks : forall (l : list gostring) m r, l <> [] ->
    exists ts, listed (args_from m l) ts /\
      lex m [] None (join (lit ", ") (map (fun _ => lit "?") l) ++ 41%N :: r) = ts ++ lex (m + N.of_nat (length l)) [] None r.
Proof.
  induction l as [|x l IH]; intros m r HN; [congruence|]. destruct l as [|y l].
  - exists [TMark m; TSym 41]. split; [constructor; constructor|]. reflexivity.
  - destruct (IH (m + 1)%N r) as (ts & H1 & H2); [discriminate|].
    exists (TMark m :: TSym 44 :: ts). split.
    + change (args_from m (x :: y :: l)) with (EArg m :: args_from (m + 1) (y :: l)). constructor; [constructor|exact H1].
    + change (map (fun _ => lit "?") (x :: y :: l)) with (lit "?" :: map (fun _ : gostring => lit "?") (y :: l)).
      rewrite join_two by (cbn; discriminate). rewrite <- !app_assoc.
      replace (m + N.of_nat (length (x :: y :: l)))%N with (m + 1 + N.of_nat (length (y :: l)))%N by (cbn [length]; lia).
      cbn [app]. rewrite <- H2. reflexivity.
Qed.
Lemma lex_numbered_marks : forall (l : list gostring) n m r, l <> [] ->
    exists ts, listed (args_from n l) ts /\
      lex m [] None (join (lit ", ") (marks_from n l) ++ 41%N :: r) = ts ++ lex m [] None r.
Proof.
  induction l as [|x l IH]; intros n m r HN; [congruence|]. destruct l as [|y l].
  - exists [TMark n; TSym 41]. split; [constructor; constructor|]. cbn [marks_from join]. rewrite lex_mark_n by auto. reflexivity.
  - destruct (IH (n + 1)%N m r) as (ts & H1 & H2); [discriminate|].
    exists (TMark n :: TSym 44 :: ts). split.
    + change (args_from n (x :: y :: l)) with (EArg n :: args_from (n + 1) (y :: l)). constructor; [constructor|exact H1].
    + change (marks_from n (x :: y :: l)) with (mark_n n :: marks_from (n + 1) (y :: l)).
      rewrite join_two by (cbn; discriminate). rewrite <- !app_assoc.
      change (lit ", " ++ ?z) with (44%N :: 32%N :: z). rewrite lex_mark_n by auto. cbn [app]. rewrite <- H2. reflexivity.
Qed.
Lemma word_no_quote : forall s, word_only s = true -> forallb (fun c => negb (N.eqb c 39)) s = true.
Proof.
  intros s H. unfold word_only in H. apply andb_true_iff in H. destruct H as [_ H]. rewrite forallb_forall in H |- *.
  intros c HC. specialize (H _ HC). apply negb_true_iff, N.eqb_neq. intros ->. discriminate.
Qed.
Lemma lex_quotes : forall (l : list gostring) m r, l <> [] -> Forall (fun s => word_only s = true) l ->
    exists ts, listed (map EText l) ts /\
      lex m [] None (join (lit ",") (map quote l) ++ 41%N :: r) = ts ++ lex m [] None r.
Proof.
  induction l as [|x l IH]; intros m r HN HW; [congruence|]. inversion HW as [|? ? W1 W2]; subst. destruct l as [|y l].
  - exists [TStr x; TSym 41]. split; [constructor; constructor|]. cbn [map join]. rewrite lex_quote by now apply word_no_quote. reflexivity.
  - destruct (IH m r) as (ts & H1 & H2); [discriminate|exact W2|].
    exists (TStr x :: TSym 44 :: ts). split.
    + change (map EText (x :: y :: l)) with (EText x :: map EText (y :: l)). constructor; [constructor|exact H1].
    + change (map quote (x :: y :: l)) with (quote x :: map quote (y :: l)).
      rewrite join_two by (cbn; discriminate). rewrite <- !app_assoc.
      change (lit "," ++ ?z) with (44%N :: z). rewrite lex_quote by now apply word_no_quote. cbn [app]. rewrite <- H2. reflexivity.
Qed.

(** * Reading the templates *)
Definition tail3 (t : gostring) : gostring := tl (part3 t).
Lemma conditions_and : forall f toks a w r, comparison_expr toks = Some (a, TWord w :: r) -> kw (lit "and") w = true ->
    conditions (S f) toks = match conditions f r with Some (b, r') => Some (EAnd a b, r') | None => None end.
Proof. intros f toks a w r H1 H2. cbn [conditions]. rewrite H1, H2. reflexivity. Qed.
Lemma comparison_in : forall toks a w u es r, prim toks = Some (a, TWord w :: TSym 40 :: u) -> kw (lit "in") w = true ->
    in_list u = Some (es, r) -> comparison_expr toks = Some (EIn a es, r).
Proof. intros toks a w u es r H1 H2 H3. unfold comparison_expr. rewrite H1, H2, H3. reflexivity. Qed.
Definition not_and (r : list tok) : Prop := match r with TWord w :: _ => kw (lit "and") w = false | _ => True end.
Lemma conditions_last : forall f toks a r, comparison_expr toks = Some (a, r) -> not_and r -> conditions (S f) toks = Some (a, r).
Proof.
  intros f toks a r H1 H2. cbn [conditions]. rewrite H1. destruct r as [|[w| | | |] r]; try reflexivity. unfold not_and in H2. now rewrite H2.
Qed.
Lemma conditions_in : forall f toks a w u es r, prim toks = Some (a, TWord w :: TSym 40 :: u) -> kw (lit "in") w = true ->
    in_list u = Some (es, r) -> not_and r -> conditions (S f) toks = Some (EIn a es, r).
Proof. intros. eapply conditions_last; eauto using comparison_in. Qed.
(** the first thing read *)
Ltac ev :=
  match goal with |- match ?x with Some _ => _ | None => _ end = _ =>
    let r := eval vm_compute in x in replace x with r by (vm_compute; reflexivity); cbv beta iota zeta
  end.
Ltac known t := let r := eval vm_compute in t in change t with r.
Ltac cond_and := erewrite conditions_and; [|vm_compute; reflexivity|vm_compute; reflexivity].
Ltac texts t :=
  let r := eval vm_compute in (lex 1 [] None (part1 t)) in change (lex 1 [] None (part1 t)) with r;
  let r := eval vm_compute in (lex 1 [] None (part2 t)) in change (lex 1 [] None (part2 t)) with r.
Lemma parse_my_column : forall e1 t1 es u, simple e1 t1 -> in_list u = Some (es, lex 1 [] None (tail3 mysql_column_template)) ->
    parse_toks (lex 1 [] None (part1 mysql_column_template) ++ t1 :: lex 1 [] None (part2 mysql_column_template) ++ u)
    = Some (my_column_query e1 es).
Proof.
  intros e1 t1 es u H1 HL. texts mysql_column_template.
  destruct H1; cbn [app]; unfold parse_toks.
  all: do 6 ev.
  all: cbn [length]; cond_and.
  all: erewrite conditions_in; [|vm_compute; reflexivity|vm_compute; reflexivity|exact HL|vm_compute; auto].
  all: cbv iota; ev; reflexivity.
Qed.
Lemma parse_my_index : forall e1 t1 es u, simple e1 t1 -> in_list u = Some (es, lex 1 [] None (tail3 mysql_index_template)) ->
    parse_toks (lex 1 [] None (part1 mysql_index_template) ++ t1 :: lex 1 [] None (part2 mysql_index_template) ++ u)
    = Some (my_index_query e1 es).
Proof.
  intros e1 t1 es u H1 HL. texts mysql_index_template.
  destruct H1; cbn [app]; unfold parse_toks.
  all: do 6 ev.
  all: cbn [length]; cond_and.
  all: erewrite conditions_in; [|vm_compute; reflexivity|vm_compute; reflexivity|exact HL|vm_compute; auto].
  all: cbv iota; ev; reflexivity.
Qed.
Lemma parse_pg_index : forall e1 t1 es u, simple e1 t1 -> in_list u = Some (es, lex 1 [] None (tail3 pg_index_template)) ->
    parse_toks (lex 1 [] None (part1 pg_index_template) ++ t1 :: lex 1 [] None (part2 pg_index_template) ++ u)
    = Some (pg_index_query ((e_ "i" "relname", lit "index_name") :: index_items) e1 es).
Proof.
  intros e1 t1 es u H1 HL. texts pg_index_template.
  destruct H1; cbn [app]; unfold parse_toks.
  all: do 6 ev.
  all: cbn [length]; cond_and.
  all: erewrite conditions_in; [|vm_compute; reflexivity|vm_compute; reflexivity|exact HL|vm_compute; auto].
  all: cbv iota; ev; reflexivity.
Qed.
Lemma parse_hasura_index : forall e1 t1 es u, simple e1 t1 -> in_list u = Some (es, lex 1 [] None (tail3 index_template)) ->
    parse_toks (lex 1 [] None (part1 index_template) ++ t1 :: lex 1 [] None (part2 index_template) ++ u)
    = Some (pg_index_query index_items e1 es).
Proof.
  intros e1 t1 es u H1 HL. texts index_template.
  destruct H1; cbn [app]; unfold parse_toks.
  all: do 6 ev.
  all: cbn [length]; cond_and.
  all: erewrite conditions_in; [|vm_compute; reflexivity|vm_compute; reflexivity|exact HL|vm_compute; auto].
  all: cbv iota; ev; reflexivity.
Qed.
Ltac cond_in_and HL := erewrite conditions_and; [|eapply comparison_in; [vm_compute; reflexivity|vm_compute; reflexivity|exact HL]|vm_compute; reflexivity].
Lemma parse_pg_column : forall e1 t1 es u, simple e1 t1 -> in_list u = Some (es, lex 1 [] None (tail3 pg_column_template)) ->
    parse_toks (lex 1 [] None (part1 pg_column_template) ++ t1 :: lex 1 [] None (part2 pg_column_template) ++ u)
    = Some (pg_column_query e1 es).
Proof.
  intros e1 t1 es u H1 HL. texts pg_column_template.
  let r := eval vm_compute in (lex 1 [] None (tail3 pg_column_template)) in change (lex 1 [] None (tail3 pg_column_template)) with r in HL.
  destruct H1; cbn [app]; unfold parse_toks.
  all: do 6 ev.
  all: cbn [length]; cond_and; cond_in_and HL.
  all: match goal with |- context [conditions ?f ?x] =>
         let r := eval vm_compute in (conditions f x) in replace (conditions f x) with r by (vm_compute; reflexivity) end.
  all: cbv iota; ev; reflexivity.
Qed.
Lemma parse_hasura_column : forall e1 t1 es u, simple e1 t1 -> in_list u = Some (es, lex 1 [] None (tail3 column_template)) ->
    parse_toks (lex 1 [] None (part1 column_template) ++ t1 :: lex 1 [] None (part2 column_template) ++ u)
    = Some (pg_column_query e1 es).
Proof.
  intros e1 t1 es u H1 HL. texts column_template.
  let r := eval vm_compute in (lex 1 [] None (tail3 column_template)) in change (lex 1 [] None (tail3 column_template)) with r in HL.
  destruct H1; cbn [app]; unfold parse_toks.
  all: do 6 ev.
  all: cbn [length]; cond_and; cond_in_and HL.
  all: match goal with |- context [conditions ?f ?x] =>
         let r := eval vm_compute in (conditions f x) in replace (conditions f x) with r by (vm_compute; reflexivity) end.
  all: cbv iota; ev; reflexivity.
Qed.

(** * From the text to the query *)
Lemma lex_parts : forall t, In t [mysql_column_template; mysql_index_template; pg_column_template; pg_index_template; column_template; index_template] ->
    (forall m r, lex m [] None (part1 t ++ r) = lex 1 [] None (part1 t) ++ lex m [] None r) /\
    (forall m r, lex m [] None (32%N :: part2 t ++ r) = lex m [] None (part2 t ++ r)) /\
    (forall m r, lex m [] None (part2 t ++ r) = lex 1 [] None (part2 t) ++ lex m [] None r) /\
    (forall m, lex m [] None (tail3 t) = lex 1 [] None (tail3 t)) /\
    part3 t = 41%N :: tail3 t /\ exists s, part2 t = 32%N :: s.
Proof.
  intros t H. cbn [In] in H.
  repeat (destruct H as [<-|H]; [repeat match goal with |- _ /\ _ => split end; try (intros; vm_compute; reflexivity); eexists; vm_compute; reflexivity|]).
  destruct H.
Qed.
Lemma question_text : forall t (q : expr -> list expr -> query) (tables : list gostring),
    In t [mysql_column_template; mysql_index_template; pg_column_template; pg_index_template; column_template; index_template] ->
    (forall e1 t1 es u, simple e1 t1 -> in_list u = Some (es, lex 1 [] None (tail3 t)) ->
       parse_toks (lex 1 [] None (part1 t) ++ t1 :: lex 1 [] None (part2 t) ++ u) = Some (q e1 es)) ->
    tables <> [] ->
    parse_sql (part1 t ++ lit "?" ++ part2 t ++ join (lit ", ") (map (fun _ => lit "?") tables) ++ part3 t) = Some (q (EArg 1) (args_from 2 tables)).
Proof.
  intros t q tables HT HP HN. destruct (lex_parts t HT) as (L1 & _ & L2 & L3 & E3 & _).
  unfold parse_sql. rewrite E3, L1. change (lit "?" ++ ?z) with (63%N :: z).
  change (lex 1 [] None (63%N :: ?z)) with (TMark 1 :: lex 2 [] None z). rewrite L2.
  destruct (lex_question_marks tables 2 (tail3 t) HN) as (ts & H1 & H2). rewrite H2. apply HP; [constructor|].
  rewrite L3. now apply in_list_listed.
Qed.
Lemma numbered_text : forall t (q : expr -> list expr -> query) (tables : list gostring),
    In t [mysql_column_template; mysql_index_template; pg_column_template; pg_index_template; column_template; index_template] ->
    (forall e1 t1 es u, simple e1 t1 -> in_list u = Some (es, lex 1 [] None (tail3 t)) ->
       parse_toks (lex 1 [] None (part1 t) ++ t1 :: lex 1 [] None (part2 t) ++ u) = Some (q e1 es)) ->
    two_marks t -> tables <> [] ->
    parse_sql (rebind 1 (part1 t ++ lit "?" ++ part2 t ++ join (lit ", ") (map (fun _ => lit "?") tables) ++ part3 t)) = Some (q (EArg 1) (args_from 2 tables)).
Proof.
  intros t q tables HT HP [_ HM] HN. destruct (lex_parts t HT) as (L1 & _ & L2 & L3 & E3 & s & E2).
  rewrite !forallb_app, !andb_true_iff in HM. destruct HM as (M1 & M2 & M3).
  rewrite (rebind_no_mark _ _ _ M1). change (lit "?" ++ ?z) with (63%N :: z).
  change (rebind 1 (63%N :: ?z)) with (mark_n 1 ++ rebind 2 z). rewrite (rebind_no_mark _ _ _ M2), rebind_marks.
  assert (R3 : forall n, rebind n (part3 t) = part3 t).
  { intros n. rewrite <- (app_nil_r (part3 t)) at 1. rewrite (rebind_no_mark _ _ _ M3). cbn [rebind]. apply app_nil_r. }
  rewrite R3. unfold parse_sql. rewrite L1, E3.
  destruct (lex_numbered_marks tables 2 1 (tail3 t) HN) as (ts & H1 & H2).
  replace (lex 1 [] None (mark_n 1 ++ part2 t ++ join (lit ", ") (marks_from 2 tables) ++ 41%N :: tail3 t))
    with (TMark 1 :: lex 1 [] None (part2 t ++ join (lit ", ") (marks_from 2 tables) ++ 41%N :: tail3 t)).
  2: { rewrite E2. cbn [app]. now rewrite lex_mark_n by auto. }
  rewrite L2, H2. apply HP; [constructor|]. now apply in_list_listed.
Qed.
Lemma replace_no_mark : forall new s q, forallb (fun c => negb (N.eqb c 63)) s = true -> replace_mark new (s ++ 63%N :: q) = s ++ new ++ q.
Proof.
  intros new. induction s as [|c s IH]; intros q H; cbn [app replace_mark]; [reflexivity|].
  cbn [forallb] in H. apply andb_true_iff in H. destruct H as [H1 H2]. apply negb_true_iff in H1. rewrite H1, IH; auto.
Qed.
Lemma check_tables_ok : forall tables x, check_tables tables = Ok x -> Forall (fun s => word_only s = true) tables.
Proof.
  induction tables as [|t tables IH]; intros x H; constructor; cbn [check_tables] in H.
  - destruct (word_only t); [reflexivity|discriminate].
  - destruct (word_only t); [eauto|discriminate].
Qed.
Lemma quoted_text : forall t (q : expr -> list expr -> query) schema tables text,
    In t [mysql_column_template; mysql_index_template; pg_column_template; pg_index_template; column_template; index_template] ->
    (forall e1 t1 es u, simple e1 t1 -> in_list u = Some (es, lex 1 [] None (tail3 t)) ->
       parse_toks (lex 1 [] None (part1 t) ++ t1 :: lex 1 [] None (part2 t) ++ u) = Some (q e1 es)) ->
    two_marks t -> tables <> [] -> build_query t schema tables = Ok text ->
    parse_sql text = Some (q (EText schema) (map EText tables)).
Proof.
  intros t q schema tables text HT HP [HE HM] HN HB. destruct (lex_parts t HT) as (L1 & _ & L2 & L3 & E3 & s & E2).
  rewrite !forallb_app, !andb_true_iff in HM. destruct HM as (M1 & M2 & M3).
  unfold build_query in HB. destruct (word_only schema) eqn:EW; [|discriminate].
  destruct (check_tables tables) as [[]|m|] eqn:EC; cbn [obind] in HB; try discriminate.
  assert (HT2 : text = part1 t ++ quote schema ++ part2 t ++ join (lit ",") (map quote tables) ++ part3 t).
  { injection HB as HB. rewrite <- HB. rewrite HE at 1. cbn [app]. rewrite (replace_no_mark _ _ _ M1).
    assert (MS : forallb (fun c => negb (N.eqb c 63)) (quote schema) = true).
    { unfold word_only in EW. apply andb_true_iff in EW. destruct EW as [_ EW]. unfold quote. cbn [forallb]. rewrite forallb_app.
      rewrite !andb_true_iff. split; [reflexivity|split; [|reflexivity]]. rewrite forallb_forall in EW |- *.
      intros c HC. specialize (EW _ HC). apply negb_true_iff, N.eqb_neq. intros ->. discriminate. }
    rewrite 2 app_assoc. rewrite replace_no_mark; [now rewrite <- !app_assoc|]. rewrite !forallb_app, M1, M2, MS. reflexivity. }
  subst text. unfold parse_sql. rewrite L1, E3, lex_quote by now apply word_no_quote. rewrite L2.
  destruct (lex_quotes tables 1 (tail3 t) HN (check_tables_ok _ _ EC)) as (ts & H1 & H2). rewrite H2.
  apply HP; [constructor|]. now apply in_list_listed.
Qed.
