(** Proofs about the metadata queries. *)
From Coq Require Import String List NArith Bool Lia Arith.
From Verif Require Import Base IndexText IndexBuild TableFields Existing Hasura HasuraSpec.
Import ListNotations.

Lemma word_char_ok : forall c, is_word c = word_char c.
Proof. reflexivity. Qed.
Lemma word_only_ok : forall s, word_only s = true <-> word s.
Proof.
  intros s. unfold word_only, word. rewrite andb_true_iff, forallb_forall. destruct s as [|c s]; simpl; split; intros [H1 H2]; split; auto; try discriminate; try congruence.
Qed.
Lemma word_dec : forall s, word s \/ ~ word s.
Proof.
  intros s. destruct (word_only s) eqn:E; [left; now apply word_only_ok|right]. intros C. apply word_only_ok in C. congruence.
Qed.
Lemma check_tables_ok : forall tables, check_tables tables = Ok tt <-> Forall word tables.
Proof.
  induction tables as [|t tables IH]; simpl; [split; [constructor|reflexivity]|].
  destruct (word_only t) eqn:E.
  - rewrite IH. apply word_only_ok in E. split; [now constructor|intros H; now inversion H].
  - split; [discriminate|]. intros H. inversion H; subst. apply word_only_ok in H2. congruence.
Qed.
Lemma check_tables_bad : forall tables m, check_tables tables = Err m <->
    exists a t b, tables = a ++ t :: b /\ Forall word a /\ ~ word t /\ m = lit "table name can contains only a-z or _: " ++ t.
Proof.
  induction tables as [|t tables IH]; intros m; cbn [check_tables].
  - split; [discriminate|]. intros (a & t & b & E & _). destruct a; discriminate.
  - destruct (word_only t) eqn:E.
    + rewrite IH. apply word_only_ok in E. split.
      * intros (a & t' & b & -> & F & W & ->). exists (t :: a), t', b. split; [reflexivity|]. split; [now constructor|]. now split.
      * intros (a & t' & b & E' & F & W & ->). destruct a as [|x a]; cbn [app] in E'; inversion E'; subst; [contradiction|].
        inversion F; subst. exists a, t', b. split; [reflexivity|]. split; [assumption|]. now split.
    + assert (NW : ~ word t) by (intros C; apply word_only_ok in C; congruence). split.
      * intros H. inversion H. exists [], t, tables. split; [reflexivity|]. split; [constructor|]. now split.
      * intros (a & t' & b & E' & F & W & ->). destruct a as [|x a]; cbn [app] in E'; inversion E'; subst; [reflexivity|].
        inversion F; subst. contradiction.
Qed.
Lemma check_tables_never_panics : forall tables, check_tables tables <> Panic.
Proof. induction tables as [|t tables IH]; simpl; [discriminate|]. destruct (word_only t); [exact IH|discriminate]. Qed.

Lemma replace_mark_app : forall new a b, ~ In 63%N a -> replace_mark new (a ++ 63%N :: b) = a ++ new ++ b.
Proof.
  induction a as [|c a IH]; intros b H; [reflexivity|]. simpl. destruct (N.eqb_spec c 63) as [->|N]; [exfalso; apply H; now left|].
  rewrite IH; [reflexivity|]. intros C. apply H. now right.
Qed.

(** reading *)
Lemma read_code : forall a s, ~ In 39%N a -> read_sql None (a ++ s) = option_map (app (map Code a)) (read_sql None s).
Proof.
  induction a as [|c a IH]; intros s H; [simpl; now destruct (read_sql None s)|]. cbn [app read_sql map].
  destruct (N.eqb_spec c 39) as [->|N]; [exfalso; apply H; now left|]. rewrite IH by (intros C; apply H; now right).
  now destruct (read_sql None s).
Qed.
Lemma read_literal : forall w acc s, ~ In 39%N w -> hd 0%N s <> 39%N ->
    read_sql (Some acc) (w ++ 39%N :: s) = option_map (cons (Literal (acc ++ w))) (read_sql None s).
Proof.
  induction w as [|c w IH]; intros acc s H Hs.
  - cbn [app read_sql]. rewrite app_nil_r. change (39 =? 39)%N with true. cbv iota. destruct s as [|c s]; [reflexivity|]. simpl in Hs.
    destruct (N.eqb_spec c 39); [contradiction|reflexivity].
  - cbn [app read_sql]. destruct (N.eqb_spec c 39) as [->|N]; [exfalso; apply H; now left|].
    rewrite IH; [|intros C; apply H; now right|exact Hs]. now rewrite <- app_assoc.
Qed.
Lemma read_quote : forall w s, ~ In 39%N w -> hd 0%N s <> 39%N ->
    read_sql None (quote w ++ s) = option_map (cons (Literal w)) (read_sql None s).
Proof.
  intros w s H Hs. unfold quote. cbn [app read_sql]. change (39 =? 39)%N with true. cbv iota. rewrite <- app_assoc. cbn [app].
  now rewrite read_literal.
Qed.
Lemma read_list : forall ws s, (forall w, In w ws -> ~ In 39%N w) -> hd 0%N s <> 39%N ->
    read_sql None (join (lit ",") (map quote ws) ++ s) = option_map (app (listed ws)) (read_sql None s).
Proof.
  intros ws s. induction ws as [|w ws IH]; intros H Hs; [simpl; now destruct (read_sql None s)|].
  destruct ws as [|w' ws].
  - cbn [map join listed]. rewrite read_quote; [now destruct (read_sql None s)|apply H; now left|exact Hs].
  - change (join (lit ",") (map quote (w :: w' :: ws))) with (quote w ++ lit "," ++ join (lit ",") (map quote (w' :: ws))).
    rewrite <- !app_assoc. rewrite read_quote; [|apply H; now left|simpl; discriminate].
    change (lit "," ++ join (lit ",") (map quote (w' :: ws)) ++ s) with ([44%N] ++ (join (lit ",") (map quote (w' :: ws)) ++ s)).
    rewrite read_code by (simpl; intros [C|[]]; discriminate). rewrite IH; [|intros; apply H; now right|exact Hs].
    destruct (read_sql None s); reflexivity.
Qed.

Fixpoint ends_word (b : bool) (a : gostring) : bool :=
  match a with [] => b | c :: a' => ends_word (word_char c) a' end.
Lemma plain_code : forall a b l, plain b (map Code a ++ l) = forallb (fun c => negb (special c)) a && plain (ends_word b a) l.
Proof.
  induction a as [|c a IH]; intros b l; [reflexivity|]. cbn [map app plain forallb ends_word]. rewrite IH. now rewrite andb_assoc.
Qed.
Lemma plain_listed : forall ws l, ws <> [] -> plain false (listed ws ++ l) = plain false l.
Proof.
  induction ws as [|w ws IH]; intros l H; [congruence|]. destruct ws as [|w' ws]; [reflexivity|].
  change (listed (w :: w' :: ws) ++ l) with (Literal w :: Code 44 :: (listed (w' :: ws) ++ l)).
  cbn [plain]. change (negb (special 44)) with true. change (word_char 44) with false. rewrite IH by discriminate. reflexivity.
Qed.

Lemma word_no : forall w c, word w -> word_char c = false -> ~ In c w.
Proof. intros w c [_ H] Hc C. rewrite (H c C) in Hc. discriminate. Qed.

(** one template *)
Lemma filled_template : forall p1 p2 p3 pieces3 schema tables,
    ~ In 63%N p1 -> ~ In 63%N p2 -> ~ In 63%N p3 -> ~ In 39%N p1 -> ~ In 39%N p2 ->
    read_sql None p3 = Some pieces3 -> hd 0%N p2 <> 39%N -> hd 0%N p3 <> 39%N ->
    ~ In (Code 63) pieces3 ->
    forallb (fun c => negb (special c)) p1 = true -> ends_word false p1 = false ->
    forallb (fun c => negb (special c)) p2 = true -> ends_word false p2 = false ->
    plain false pieces3 = true ->
    p2 <> [] ->
    word schema -> Forall word tables ->
    filled (p1 ++ 63%N :: p2 ++ 63%N :: p3) schema tables
      (replace_mark (join (lit ",") (map quote tables)) (replace_mark (quote schema) (p1 ++ 63%N :: p2 ++ 63%N :: p3))).
Proof.
  intros p1 p2 p3 pieces3 schema tables M1 M2 M3 Q1 Q2 R3 H2 H3 N3 S1 E1 S2 E2 P3 Ne Ws Wt.
  assert (NS : ~ In 39%N schema) by (apply word_no; auto). assert (NM : ~ In 63%N schema) by (apply word_no; auto).
  assert (NT : forall w, In w tables -> ~ In 39%N w) by (rewrite Forall_forall in Wt; intros w Hw; apply word_no; auto).
  rewrite (replace_mark_app (quote schema) p1) by exact M1. rewrite !app_assoc.
  rewrite (replace_mark_app _ ((p1 ++ quote schema) ++ p2)).
  2:{ unfold quote. intros C. rewrite !in_app_iff in C. simpl in C. rewrite in_app_iff in C. simpl in C.
      destruct C as [[C|[C|[C|[C|[]]]]]|C]; try discriminate; auto. }
  exists (map Code p1), (map Code p2), pieces3. split; [|split; [|split]].
  - intros C. rewrite !in_app_iff in C. destruct C as [C|[C|C]]; [| |contradiction]; apply in_map_iff in C;
      destruct C as (x & E & Hx); inversion E; subst; contradiction.
  - rewrite <- ?app_assoc. rewrite read_code by exact Q1.
    change (63%N :: p2 ++ 63%N :: p3) with ([63%N] ++ p2 ++ 63%N :: p3). rewrite read_code by (simpl; intros [C|[]]; discriminate).
    rewrite read_code by exact Q2. change (63%N :: p3) with ([63%N] ++ p3). rewrite read_code by (simpl; intros [C|[]]; discriminate).
    rewrite R3. reflexivity.
  - rewrite <- !app_assoc. rewrite read_code by exact Q1. rewrite read_quote; [|exact NS|destruct p2; [congruence|exact H2]].
    rewrite read_code by exact Q2. rewrite read_list; [|exact NT|exact H3]. rewrite R3. reflexivity.
  - rewrite plain_code, S1, E1. cbn [app plain negb andb]. rewrite plain_code, S2, E2. cbn [andb].
    destruct tables as [|t tables]; [exact P3|]. rewrite plain_listed by discriminate. exact P3.
Qed.

Fixpoint before (s : gostring) : gostring := match s with [] => [] | c :: s' => if N.eqb c 63 then [] else c :: before s' end.
Fixpoint after (s : gostring) : gostring := match s with [] => [] | c :: s' => if N.eqb c 63 then s' else after s' end.
Definition notin (c : rune) (s : gostring) : bool := negb (existsb (N.eqb c) s).
Lemma notin_ok : forall c s, notin c s = true -> ~ In c s.
Proof.
  intros c s H C. unfold notin in H. apply negb_true_iff in H. assert (existsb (N.eqb c) s = true); [|congruence].
  apply existsb_exists. exists c. split; [exact C|apply N.eqb_refl].
Qed.
Definition code_free (c : rune) (l : list piece) : bool := forallb (fun p => match p with Code x => negb (N.eqb x c) | Literal _ => true end) l.
Lemma code_free_ok : forall c l, code_free c l = true -> ~ In (Code c) l.
Proof.
  intros c l H C. unfold code_free in H. rewrite forallb_forall in H. specialize (H _ C). simpl in H. now rewrite N.eqb_refl in H.
Qed.
Ltac template_ok T :=
  match goal with |- filled T ?s ?ts _ =>
    let a := eval vm_compute in (before T) in let b := eval vm_compute in (before (after T)) in let c := eval vm_compute in (after (after T)) in
    let l := eval vm_compute in (match read_sql None (after (after T)) with Some l => l | None => [] end) in
    change T with (a ++ 63%N :: b ++ 63%N :: c);
    apply (filled_template a b c l); try assumption; try (apply notin_ok; vm_compute; reflexivity); try (apply code_free_ok; vm_compute; reflexivity);
    try (vm_compute; reflexivity); try (simpl; discriminate)
  end.
Lemma build_query_filled : forall T schema tables q, T = column_template \/ T = index_template ->
    build_query T schema tables = Ok q -> word schema /\ Forall word tables /\ filled T schema tables q.
Proof.
  intros T schema tables q HT H. unfold build_query in H. destruct (word_only schema) eqn:Es; [|discriminate].
  apply word_only_ok in Es. destruct (check_tables tables) as [[]| |] eqn:Et; cbn [obind] in H; try discriminate.
  apply check_tables_ok in Et. injection H as <-. split; [exact Es|]. split; [exact Et|].
  destruct HT as [->| ->]; [template_ok column_template|template_ok index_template].
Qed.

(** ** Answers *)
Lemma column_row_total : forall r, parse_column_row r = Panic /\ length r < 3 \/ exists x, parse_column_row r = Ok x /\ column_row r x.
Proof.
  intros r. unfold parse_column_row. destruct r as [|t [|c [|pk more]]]; cbn [nth_error length]; try (left; split; [reflexivity|lia]). right.
  destruct (seqb pk (lit "t")) eqn:E.
  - apply seqb_eq in E. subst. exists (t, c, true). split; [reflexivity|constructor].
  - exists (t, c, false). split; [reflexivity|]. constructor. intros ->. now rewrite seqb_refl in E.
Qed.
Lemma column_row_fun : forall r x y, column_row r x -> column_row r y -> x = y.
Proof. intros r x y H1 H2. inversion H1; subst; inversion H2; subst; try reflexivity; exfalso; match goal with X : _ <> _ |- _ => apply X; reflexivity end. Qed.
Lemma column_row_long : forall r x, column_row r x -> 3 <= length r.
Proof. intros r x H. inversion H; simpl; lia. Qed.
Lemma column_rows_decode : forall rows cols, parse_column_rows rows = Ok cols <-> Forall2 column_row rows cols.
Proof.
  induction rows as [|r rows IH]; intros cols; cbn [parse_column_rows].
  - split; [intros H; injection H as <-; constructor|intros H; inversion H; reflexivity].
  - destruct (column_row_total r) as [[E L]|[x [E Hx]]]; rewrite E; cbn [obind].
    + split; [discriminate|]. intros H. inversion H; subst. apply column_row_long in H2. lia.
    + destruct (parse_column_rows rows) as [l|m|] eqn:El; cbn [obind].
      * split.
        -- intros H. injection H as <-. constructor; [exact Hx|]. now apply IH.
        -- intros H. inversion H; subst. f_equal. f_equal; [eapply column_row_fun; eauto|]. apply IH in H4. now injection H4.
      * split; [discriminate|]. intros H. inversion H; subst. apply IH in H4. discriminate.
      * split; [discriminate|]. intros H. inversion H; subst. apply IH in H4. discriminate.
Qed.
Lemma column_rows_panic : forall rows, match parse_column_rows rows with Ok _ => True | Err _ => False | Panic => Exists (fun r => length r < 3) rows end.
Proof.
  induction rows as [|r rows IH]; cbn [parse_column_rows]; [exact I|].
  destruct (column_row_total r) as [[E L]|[x [E Hx]]]; rewrite E; cbn [obind]; [now constructor|].
  destruct (parse_column_rows rows); cbn [obind]; auto.
Qed.
Lemma index_rows_decode : forall scan rows its, parse_index_rows scan rows = Ok its <->
    Forall2 (fun r it => index_row scan r (it_table it) (it_cols it)) rows its.
Proof.
  intros scan. induction rows as [|r rows IH]; intros its; cbn [parse_index_rows].
  - split; [intros H; injection H as <-; constructor|intros H; inversion H; reflexivity].
  - split.
    + intros H. destruct (parse_index_row scan r) as [x| |] eqn:E; cbn [obind] in H; try discriminate.
      destruct (parse_index_rows scan rows) as [l| |] eqn:El; cbn [obind] in H; try discriminate. injection H as <-.
      constructor; [|now apply IH]. unfold parse_index_row in E. destruct r as [|t [|a more]]; simpl in E; try discriminate.
      destruct (scan a) as [cols| |] eqn:Es; try discriminate. injection E as <-. exists a, more. now split.
    + intros H. inversion H as [|? it ? l (a & more & -> & Es) Hl]; subst. apply IH in Hl. unfold parse_index_row. simpl. rewrite Es. cbn [obind].
      rewrite Hl. cbn [obind]. destruct it; reflexivity.
Qed.
(** what the first row that cannot be read does *)
Lemma index_rows_stop : forall scan a r b, (forall x, In x a -> exists t cols, index_row scan x t cols) ->
    (length r < 2 -> parse_index_rows scan (a ++ r :: b) = Panic) /\
    (forall t x more m, r = t :: x :: more -> scan x = Err m -> parse_index_rows scan (a ++ r :: b) = Err (array_message ++ m)).
Proof.
  intros scan a r b H. induction a as [|y a IH].
  - split.
    + intros L. destruct r as [|t [|x more]]; simpl in L; try lia; reflexivity.
    + intros t x more m -> E. cbn [app parse_index_rows]. unfold parse_index_row. simpl. now rewrite E.
  - destruct (H y (or_introl eq_refl)) as (t0 & cols0 & x0 & more0 & -> & E0).
    destruct IH as [IH1 IH2]; [intros; apply H; now right|].
    assert (P : parse_index_row scan (t0 :: x0 :: more0) = Ok (mk_it t0 cols0)) by (unfold parse_index_row; simpl; now rewrite E0).
    split; [intros L|intros t x more m Er Es]; cbn [app parse_index_rows]; rewrite P; cbn [obind].
    + now rewrite (IH1 L).
    + now rewrite (IH2 _ _ _ _ Er Es).
Qed.
Lemma parse_columns_tl : forall rows, parse_columns rows = parse_column_rows (tl rows).
Proof. now destruct rows. Qed.
Lemma parse_indexes_tl : forall scan rows, parse_indexes scan rows = parse_index_rows scan (tl rows).
Proof. now destruct rows. Qed.
Lemma index_rows_panic : forall scan rows, (forall x, scan x <> Panic) ->
    parse_index_rows scan rows = Panic -> Exists (fun r => length r < 2) rows.
Proof.
  intros scan rows Hs. induction rows as [|r rows IH]; cbn [parse_index_rows]; [discriminate|].
  destruct r as [|t [|a more]]; try (intros _; constructor; simpl; lia). 
  destruct (parse_index_row scan (t :: a :: more)) as [x|m|] eqn:E; cbn [obind]; [|discriminate|].
  2:{ unfold parse_index_row in E. simpl in E. destruct (scan a) eqn:Es; try discriminate. now apply Hs in Es. }
  destruct (parse_index_rows scan rows) eqn:El; cbn [obind]; try discriminate. intros _. right. now apply IH.
Qed.

(** ** Requests *)
Lemma get_table_columns_requests : forall server server' schema tables,
    (forall q, filled column_template schema tables q -> server {| rs_sql := q; rs_read_only := Some true |} = server' {| rs_sql := q; rs_read_only := Some true |}) ->
    get_table_columns server schema tables = get_table_columns server' schema tables.
Proof.
  intros server server' schema tables H. unfold get_table_columns. destruct (build_query column_template schema tables) as [q|m|] eqn:E; cbn [obind]; try reflexivity.
  rewrite H; [reflexivity|]. now apply build_query_filled in E; [|left].
Qed.
Lemma get_indexes_requests : forall server server' scan schema tables,
    (forall q, filled index_template schema tables q -> server {| rs_sql := q; rs_read_only := Some true |} = server' {| rs_sql := q; rs_read_only := Some true |}) ->
    get_indexes server scan schema tables = get_indexes server' scan schema tables.
Proof.
  intros server server' scan schema tables H. unfold get_indexes. destruct (build_query index_template schema tables) as [q|m|] eqn:E; cbn [obind]; try reflexivity.
  rewrite H; [reflexivity|]. now apply build_query_filled in E; [|right].
Qed.

(** ** The text determines the names *)
Lemma split_unique : forall (A : Type) (m : A) a b a' b', ~ In m a -> ~ In m a' -> a ++ m :: b = a' ++ m :: b' -> a = a' /\ b = b'.
Proof.
  intros A m. induction a as [|x a IH]; intros b a' b' H H' E; destruct a' as [|y a']; cbn [app] in E; inversion E; subst; auto.
  - exfalso. apply H'. now left.
  - exfalso. apply H. now left.
  - destruct (IH b a' b') as [-> ->]; auto; intros C; [apply H|apply H']; now right.
Qed.
Lemma listed_injective : forall l l', listed l = listed l' -> l = l'.
Proof.
  induction l as [|x l IH]; intros l' E.
  - destruct l' as [|y [|z l']]; [reflexivity|discriminate|discriminate].
  - destruct l as [|x' l]; destruct l' as [|y [|z l']]; try discriminate.
    + now inversion E.
    + change (Literal x :: Code 44 :: listed (x' :: l) = Literal y :: Code 44 :: listed (z :: l')) in E.
      assert (X : x = y) by (inversion E; reflexivity). assert (L : listed (x' :: l) = listed (z :: l')) by (injection E; auto).
      rewrite X. f_equal. now apply IH.
Qed.
Lemma filled_injective : forall T s ts s' ts' q, filled T s ts q -> filled T s' ts' q -> s = s' /\ ts = ts'.
Proof.
  intros T s ts s' ts' q (a & b & c & N & R & Q & _) (a' & b' & c' & N' & R' & Q' & _).
  rewrite R in R'. injection R' as R'. rewrite Q in Q'. injection Q' as Q'. rewrite !in_app_iff in N, N'.
  cbn [app] in R'. apply split_unique in R'; [|tauto|tauto]. destruct R' as [<- R']. apply split_unique in R'; [|tauto|tauto]. destruct R' as [<- <-].
  apply app_inv_head in Q'. cbn [app] in Q'. injection Q' as Es E. split; [exact Es|].
  apply app_inv_head in E. apply app_inv_tail in E. now apply listed_injective.
Qed.
Lemma empty_list_text : forall T schema, T = column_template \/ T = index_template -> word schema ->
    exists q a b, build_query T schema [] = Ok q /\ q = a ++ lit "IN ()" ++ b.
Proof.
  intros T schema HT W.
  assert (E : exists p1 p2 p3, T = p1 ++ 63%N :: (p2 ++ lit "IN (") ++ 63%N :: lit ")" ++ p3 /\ ~ In 63%N p1 /\ ~ In 63%N p2).
  { destruct HT as [->| ->]; [set (T := column_template)|set (T := index_template)].
    - exists (before T), (firstn (length (before (after T)) - 4) (before (after T))), (tl (after (after T))).
      split; [vm_compute; reflexivity|]. split; apply notin_ok; vm_compute; reflexivity.
    - exists (before T), (firstn (length (before (after T)) - 4) (before (after T))), (tl (after (after T))).
      split; [vm_compute; reflexivity|]. split; apply notin_ok; vm_compute; reflexivity. }
  destruct E as (p1 & p2 & p3 & -> & N1 & N2).
  exists (replace_mark [] (replace_mark (quote schema) (p1 ++ 63%N :: (p2 ++ lit "IN (") ++ 63%N :: lit ")" ++ p3))), (p1 ++ quote schema ++ p2), p3.
  split. { unfold build_query. rewrite (proj2 (word_only_ok schema) W). reflexivity. }
  rewrite replace_mark_app by exact N1.
  assert (NM : ~ In 63%N schema) by (apply word_no; auto).
  replace (p1 ++ quote schema ++ (p2 ++ lit "IN (") ++ 63%N :: lit ")" ++ p3) with ((p1 ++ quote schema ++ p2 ++ lit "IN (") ++ 63%N :: lit ")" ++ p3) by (now rewrite <- ?app_assoc).
  rewrite replace_mark_app; [now rewrite <- ?app_assoc|].
  unfold quote. intros C. rewrite !in_app_iff in C. simpl in C. rewrite in_app_iff in C. simpl in C. intuition discriminate.
Qed.
