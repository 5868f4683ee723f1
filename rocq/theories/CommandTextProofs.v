From Coq Require Import String List NArith Bool Lia Arith.
From Verif Require Import Base IndexText IndexTextSpec CommandText CommandTextSpec.
Import ListNotations.

(** ** File names *)
Lemma ext_back_dot : forall e r acc, ~ In 46%N e -> ~ In 47%N e ->
  ext_back (e ++ 46%N :: r) acc = 46%N :: rev e ++ acc.
Proof.
  induction e as [|c e IH]; intros r acc H1 H2; cbn [ext_back app].
  - reflexivity.
  - destruct (N.eqb_spec c 47) as [->|N1]; [exfalso; apply H2; now left|].
    destruct (N.eqb_spec c 46) as [->|N2]; [exfalso; apply H1; now left|].
    rewrite IH; [|intros K; apply H1; now right|intros K; apply H2; now right].
    cbn [rev]. now rewrite <- app_assoc.
Qed.
Lemma ext_back_none : forall e r acc, ~ In 46%N e -> ~ In 47%N e ->
  (r = [] \/ exists r', r = 47%N :: r') -> ext_back (e ++ r) acc = [].
Proof.
  induction e as [|c e IH]; intros r acc H1 H2 H3; cbn [ext_back app].
  - destruct H3 as [->|[r' ->]]; reflexivity.
  - destruct (N.eqb_spec c 47) as [->|N1]; [exfalso; apply H2; now left|].
    destruct (N.eqb_spec c 46) as [->|N2]; [exfalso; apply H1; now left|].
    apply IH; [intros K; apply H1; now right|intros K; apply H2; now right|exact H3].
Qed.
Lemma file_ext_parts : forall f dir stem ext, file_parts f dir stem ext -> file_ext f = ext.
Proof.
  intros f dir stem ext (E & D & S & X & K). unfold file_ext. subst f.
  rewrite !rev_app_distr, <- ?app_assoc.
  destruct K as [[-> NS]|[e [-> NE]]].
  - cbn [rev app]. apply ext_back_none.
    + now rewrite <- in_rev.
    + now rewrite <- in_rev.
    + destruct D as [->|[d ->]]; [now left|right]. rewrite rev_app_distr. cbn. eauto.
  - cbn [rev]. rewrite <- !app_assoc. cbn [app]. rewrite ext_back_dot.
    + now rewrite rev_involutive, app_nil_r.
    + now rewrite <- in_rev.
    + rewrite <- in_rev. intros Hin. apply X. now right.
Qed.
Lemma trim_suffix_app : forall a b, trim_suffix (a ++ b) b = a.
Proof.
  intros a b. unfold trim_suffix. rewrite app_length.
  replace (length a + length b - length b) with (length a) by lia.
  rewrite (proj2 (Nat.leb_le _ _)) by lia.
  rewrite skipn_app, skipn_all, Nat.sub_diag. cbn [app skipn].
  rewrite seqb_refl. cbn [andb].
  rewrite firstn_app, firstn_all, Nat.sub_diag. cbn [firstn]. now rewrite app_nil_r.
Qed.
Lemma output_value : forall f dir stem ext, file_parts f dir stem ext ->
  co_value (create_output_option true f) = dir ++ (stem ++ lit "_examine") ++ ext.
Proof.
  intros f dir stem ext H. unfold create_output_option. cbn [co_value].
  rewrite (file_ext_parts _ _ _ _ H). destruct H as (E & _). subst f.
  rewrite (app_assoc dir stem ext), trim_suffix_app. now rewrite <- !app_assoc.
Qed.
Lemma split_last : forall (x : N) s, ~ In x s \/ exists a b, s = a ++ x :: b /\ ~ In x b.
Proof.
  intros x. induction s as [|c s IH]; [left; tauto|].
  destruct IH as [H|(a & b & -> & H)].
  - destruct (N.eq_dec c x) as [->|D].
    + right. exists [], s. now split.
    + left. intros [K|K]; [now apply D|now apply H].
  - right. exists (c :: a), b. now split.
Qed.
Lemma file_parts_exist : forall f, exists dir stem ext, file_parts f dir stem ext.
Proof.
  intros f.
  assert (exists dir base, f = dir ++ base /\ (dir = [] \/ exists d, dir = d ++ [47%N]) /\ ~ In 47%N base) as (dir & base & E & D & B).
  { destruct (split_last 47 f) as [H|(a & b & -> & H)].
    - exists [], f. auto.
    - exists (a ++ [47%N]), b. rewrite <- app_assoc. split; [reflexivity|]. split; [right; eauto|exact H]. }
  destruct (split_last 46 base) as [H|(a & b & Eb & H)].
  - exists dir, base, []. unfold file_parts. rewrite app_nil_r. split; [exact E|]. split; [exact D|].
    split; [exact B|]. split; [cbn; tauto|]. left. now split.
  - exists dir, a, (46%N :: b). subst base. unfold file_parts. split; [exact E|]. split; [exact D|].
    split; [intros K; apply B, in_or_app; now left|].
    split; [intros K; apply B, in_or_app; now right|]. right. eauto.
Qed.
Lemma examine_no : forall x, x = 47%N \/ x = 46%N -> ~ In x (lit "_examine").
Proof. intros x [->| ->]; cbn; intuition discriminate. Qed.
Lemma file_parts_examine : forall f dir stem ext, file_parts f dir stem ext ->
  file_parts (dir ++ (stem ++ lit "_examine") ++ ext) dir (stem ++ lit "_examine") ext.
Proof.
  intros f dir stem ext (E & D & S & X & K). unfold file_parts.
  split; [reflexivity|]. split; [exact D|].
  split; [intros H; apply in_app_or in H as [H|H]; [now apply S|now apply (examine_no 47) in H; auto]|].
  split; [exact X|].
  destruct K as [[-> N]|[e [-> N]]]; [left|right; eauto].
  split; [reflexivity|]. intros H. apply in_app_or in H as [H|H]; [now apply N|now apply (examine_no 46) in H; auto].
Qed.
Lemma last_unique : forall (x : N) a b a' b', a ++ x :: b = a' ++ x :: b' -> ~ In x b -> ~ In x b' -> a = a' /\ b = b'.
Proof.
  intros x. induction a as [|c a IH]; intros b a' b' E H H'; destruct a' as [|c' a']; cbn [app] in E.
  - injection E as E. now split.
  - injection E as E1 E2. exfalso. apply H. rewrite E2. apply in_or_app. right. now left.
  - injection E as E1 E2. exfalso. apply H'. rewrite <- E2. apply in_or_app. right. now left.
  - injection E as -> E2. destruct (IH _ _ _ E2 H H') as [-> ->]. now split.
Qed.
Lemma file_parts_unique : forall f d s x d' s' x', file_parts f d s x -> file_parts f d' s' x' -> d = d' /\ s = s' /\ x = x'.
Proof.
  intros f d s x d' s' x' H H'.
  pose proof (file_ext_parts _ _ _ _ H) as E1. pose proof (file_ext_parts _ _ _ _ H') as E2.
  assert (x = x') by congruence. subst x'.
  destruct H as (E & D & S & X & K), H' as (E' & D' & S' & _ & K').
  assert (d ++ s = d' ++ s') as ES.
  { apply (app_inv_tail x). rewrite <- !app_assoc. congruence. }
  enough (d = d') as -> by (apply app_inv_head in ES; now subst).
  destruct D as [->|[e ->]], D' as [->|[e' ->]]; [reflexivity| | |].
  - exfalso. apply S. cbn [app] in ES. rewrite ES. apply in_or_app. left. apply in_or_app. right. now left.
  - exfalso. apply S'. cbn [app] in ES. rewrite <- ES. apply in_or_app. left. apply in_or_app. right. now left.
  - rewrite <- !app_assoc in ES. cbn [app] in ES. destruct (last_unique _ _ _ _ _ ES S S') as [-> _]. reflexivity.
Qed.

(** ** The shell's reading *)
Section Reading.
Variable env : gostring -> gostring.
Lemma read_quoted : forall v w s, sh_read env (InQuote w) (escape_value v ++ 34%N :: s) = sh_read env (InWord (w ++ v)) s.
Proof.
  unfold escape_value. induction v as [|c v IH]; intros w s.
  - cbn. now rewrite app_nil_r.
  - cbn [flat_map]. unfold needs_escape at 1.
    destruct (N.eqb c 34 || N.eqb c 36 || N.eqb c 96 || N.eqb c 92)%bool eqn:E.
    + rewrite <- app_assoc. cbn [app]. cbn [sh_read].
      replace (92 =? 34)%N with false by reflexivity. replace (92 =? 92)%N with true by reflexivity.
      rewrite E. destruct (N.eqb_spec c 10) as [->|]; [discriminate E|].
      rewrite IH. now rewrite <- app_assoc.
    + cbn [app]. cbn [sh_read]. rewrite !orb_false_iff in E. destruct E as (((E1 & E2) & E3) & E4).
      rewrite E1, E4, E2, E3. rewrite IH. now rewrite <- app_assoc.
Qed.
Lemma quote_safe_escape : forall v, quote_safe v -> escape_value v = v.
Proof.
  unfold escape_value. induction 1 as [|c v (H1 & H2 & H3 & H4) _ IH]; [reflexivity|].
  cbn [flat_map]. rewrite IH. unfold needs_escape.
  now rewrite (proj2 (N.eqb_neq _ _) H1), (proj2 (N.eqb_neq _ _) H2), (proj2 (N.eqb_neq _ _) H3), (proj2 (N.eqb_neq _ _) H4).
Qed.
Lemma plain_facts : forall c, plain c = true ->
  N.eqb c 32 = false /\ N.eqb c 9 = false /\ N.eqb c 92 = false /\ N.eqb c 34 = false /\ N.eqb c 39 = false.
Proof.
  intros c H.
  assert (forall k, plain k = false -> N.eqb c k = false) as F.
  { intros k Hk. apply N.eqb_neq. intros ->. congruence. }
  repeat (split; [apply F; reflexivity|]). apply F. reflexivity.
Qed.
Lemma read_plain : forall v w s, forallb plain v = true -> sh_read env (InWord w) (v ++ s) = sh_read env (InWord (w ++ v)) s.
Proof.
  induction v as [|c v IH]; intros w s H; cbn [app].
  - now rewrite app_nil_r.
  - cbn [forallb] in H. apply andb_true_iff in H as [H1 H2].
    cbn [sh_read]. destruct (plain_facts c H1) as (A & B & C & D & F). rewrite A, B, C, D, F, H1. cbn [orb].
    rewrite IH by exact H2. now rewrite <- app_assoc.
Qed.
Lemma read_plain_start : forall c v s, forallb plain (c :: v) = true -> sh_read env Between ((c :: v) ++ s) = sh_read env (InWord (c :: v)) s.
Proof.
  intros c v s H. cbn [forallb] in H. apply andb_true_iff in H as [H1 H2]. cbn [app sh_read].
  destruct (plain_facts c H1) as (A & B & C & D & F). rewrite A, B, C, D, F, H1. cbn [orb]. now rewrite read_plain.
Qed.
Definition opt_cons (ws : list gostring) (r : option (list gostring)) : option (list gostring) :=
  match r with Some l => Some (ws ++ l) | None => None end.
Lemma opt_cons_app : forall a b r, opt_cons a (opt_cons b r) = opt_cons (a ++ b) r.
Proof. intros a b [l|]; cbn; [now rewrite app_assoc|reflexivity]. Qed.
Lemma read_blank : forall w s, sh_read env (InWord w) (32%N :: s) = opt_cons [w] (sh_read env Between s).
Proof. intros w s. cbn [sh_read]. cbn. now destruct (sh_read env Between s). Qed.
Lemma read_next_line : forall w s, sh_read env (InWord w) (next_line ++ s) = opt_cons [w] (sh_read env Between s).
Proof.
  intros w s. change (next_line ++ s) with (32%N :: 92%N :: 10%N :: s). rewrite read_blank. reflexivity.
Qed.
Lemma word_plain : forall v, forallb is_word v = true -> forallb plain v = true.
Proof.
  intros v. rewrite !forallb_forall. intros H c Hc. specialize (H c Hc).
  unfold is_word, is_digit, is_upper, is_lower, plain in *.
  rewrite !orb_true_iff, !andb_true_iff, ?N.leb_le, ?N.eqb_eq in *. tauto.
Qed.
Definition opt_words (o : cmd_option) : list gostring :=
  [(if co_short o then lit "-" else lit "--") ++ co_name o; co_value o].
Lemma word_escape : forall v, forallb is_word (escape_value v) = true -> escape_value v = v.
Proof.
  unfold escape_value. induction v as [|c v IH]; intros H; [reflexivity|].
  cbn [flat_map] in *. rewrite forallb_app in H. apply andb_true_iff in H as [H1 H2].
  destruct (needs_escape c) eqn:E; [discriminate H1|]. cbn [app]. now rewrite IH.
Qed.
Lemma read_option : forall o s, forallb plain (co_name o) = true ->
  sh_read env Between (to_command_string o ++ s) =
  opt_cons [(if co_short o then lit "-" else lit "--") ++ co_name o] (sh_read env (InWord (co_value o)) s).
Proof.
  intros o s Hn. unfold to_command_string. cbv zeta.
  set (d := if co_short o then lit "-" else lit "--").
  assert (exists d', d = 45%N :: d' /\ forallb plain d' = true) as (d' & Ed & Hd).
  { subst d. destruct (co_short o); [exists []|exists [45%N]]; split; reflexivity. }
  rewrite Ed. clear Ed d.
  assert (forallb plain (45%N :: d' ++ co_name o) = true) as Hp.
  { cbn [forallb]. rewrite forallb_app, Hd, Hn. reflexivity. }
  destruct (negb (match escape_value (co_value o) with [] => true | _ => false end) && forallb is_word (escape_value (co_value o)))%bool eqn:E.
  - apply andb_true_iff in E as [E1 E2].
    pose proof (word_escape _ E2) as Ev. rewrite Ev in *.
    destruct (co_value o) as [|c v]; [discriminate E1|].
    replace (((45%N :: d') ++ co_name o ++ lit " " ++ c :: v) ++ s) with ((45%N :: (d' ++ co_name o)) ++ 32%N :: (c :: v) ++ s)
      by (cbn [app]; rewrite <- !app_assoc; reflexivity).
    rewrite read_plain_start by exact Hp. rewrite read_blank, read_plain_start by now apply word_plain. reflexivity.
  - replace (((45%N :: d') ++ co_name o ++ lit " " ++ lit """" ++ escape_value (co_value o) ++ lit """") ++ s)
      with ((45%N :: (d' ++ co_name o)) ++ 32%N :: 34%N :: escape_value (co_value o) ++ 34%N :: s)
      by (cbn [app]; rewrite <- !app_assoc; reflexivity).
    rewrite read_plain_start by exact Hp. rewrite read_blank.
    change (sh_read env Between (34%N :: escape_value (co_value o) ++ 34%N :: s)) with (sh_read env (InQuote []) (escape_value (co_value o) ++ 34%N :: s)).
    now rewrite read_quoted.
Qed.
Lemma read_options : forall opts, (forall o, In o opts -> forallb plain (co_name o) = true) ->
  sh_read env Between (join next_line (map (fun o => 9%N :: to_command_string o) opts)) = Some (flat_map opt_words opts).
Proof.
  induction opts as [|o opts IH]; intros H; [reflexivity|].
  assert (forallb plain (co_name o) = true) as Ho by (apply H; now left).
  destruct opts as [|o2 opts].
  - cbn [map join flat_map app].
    change (sh_read env Between (9%N :: to_command_string o)) with (sh_read env Between (to_command_string o)).
    rewrite <- (app_nil_r (to_command_string o)), read_option by exact Ho. reflexivity.
  - cbn [map] in *. change (join next_line (?x :: ?y :: ?l)) with (x ++ next_line ++ join next_line (y :: l)).
    cbn [app].
    change (sh_read env Between (9%N :: ?x)) with (sh_read env Between x).
    rewrite read_option by exact Ho. rewrite read_next_line, opt_cons_app, IH by (intros o' Ho'; apply H; now right).
    reflexivity.
Qed.
Lemma quote_safe_app : forall a b, quote_safe a -> quote_safe b -> quote_safe (a ++ b).
Proof. intros a b Ha Hb. apply Forall_app. now split. Qed.
Lemma quote_safe_join : forall sep l, quote_safe sep -> Forall quote_safe l -> quote_safe (join sep l).
Proof.
  intros sep l Hs. induction 1 as [|x l Hx Hl IH]; [constructor|].
  destruct l as [|y l]; [exact Hx|].
  change (join sep (x :: y :: l)) with (x ++ sep ++ join sep (y :: l)). now repeat apply quote_safe_app.
Qed.
Lemma quote_safe_target : forall it, quote_safe (it_table it) -> Forall quote_safe (it_cols it) -> quote_safe (to_gr_index_option it).
Proof.
  intros it H1 H2. unfold to_gr_index_option. apply quote_safe_app; [exact H1|]. apply quote_safe_app.
  - constructor; [|constructor]. repeat split; discriminate.
  - apply quote_safe_join; [|exact H2]. constructor; [|constructor]. repeat split; discriminate.
Qed.
Definition target_words (it : index_target) : list gostring := [lit "-i"; to_gr_index_option it].
Lemma read_targets : forall targets s,
  Forall (fun it => quote_safe (it_table it) /\ Forall quote_safe (it_cols it)) targets ->
  sh_read env Between (concat (map (fun it => [9%N] ++ lit "-i " ++ quoted_index_option it ++ next_line) targets) ++ s) =
  opt_cons (flat_map target_words targets) (sh_read env Between s).
Proof.
  intros targets s H. induction H as [|it targets [H1 H2] _ IH].
  - cbn. now destruct (sh_read env Between s).
  - cbn [map concat flat_map]. rewrite <- opt_cons_app, <- IH.
    set (r := concat _ ++ s).
    replace ((([9%N] ++ lit "-i " ++ quoted_index_option it ++ next_line) ++ concat (map (fun it => [9%N] ++ lit "-i " ++ quoted_index_option it ++ next_line) targets)) ++ s)
      with (9%N :: (45%N :: [105%N]) ++ 32%N :: 34%N :: to_gr_index_option it ++ 34%N :: next_line ++ r).
    2:{ unfold quoted_index_option, r. cbn [app of_string]. rewrite <- !app_assoc. reflexivity. }
    change (sh_read env Between (9%N :: ?x)) with (sh_read env Between x).
    rewrite read_plain_start by reflexivity. rewrite read_blank.
    change (sh_read env Between (34%N :: ?x)) with (sh_read env (InQuote []) x).
    rewrite <- (quote_safe_escape (to_gr_index_option it)) at 1 by now apply quote_safe_target.
    rewrite read_quoted, read_next_line, opt_cons_app. reflexivity.
Qed.
Definition sub_words (k : sub_command) : list gostring :=
  match k with SubMysql => [lit "mysql"] | SubPostgres => [lit "postgres"] | SubHasura => [lit "hasura"; lit "postgres"] end.
Lemma read_head : forall k s,
  sh_read env Between (lit "gr db suggest " ++ sub_text k ++ lit " --with-examine" ++ next_line ++ s) =
  opt_cons ([lit "gr"; lit "db"; lit "suggest"] ++ sub_words k ++ [lit "--with-examine"]) (sh_read env Between s).
Proof.
  intros k s.
  destruct k; cbn -[sh_read plain]; destruct (sh_read env Between s) eqn:E;
    cbn; rewrite E; reflexivity.
Qed.

Lemma read_single : forall v w s, ~ In 39%N v -> sh_read env (InSingle w) (v ++ 39%N :: s) = sh_read env (InWord (w ++ v)) s.
Proof.
  induction v as [|c v IH]; intros w s H; cbn [app sh_read].
  - now rewrite app_nil_r.
  - destruct (N.eqb_spec c 39) as [->|N]; [exfalso; apply H; now left|].
    rewrite IH by (intros K; apply H; now right). now rewrite <- app_assoc.
Qed.
End Reading.

(** ** The tokens of the statements *)
Lemma sql_name : forall v w s, Forall word_char v -> sql_read w (v ++ s) = sql_read (w ++ v) s.
Proof.
  induction v as [|c v IH]; intros w s H; cbn [app sql_read].
  - now rewrite app_nil_r.
  - inversion H as [|? ? Hc Hv]; subst.
    destruct (N.eqb_spec c 32) as [->|_]; [unfold word_char in Hc; lia|].
    destruct (N.eqb c 40 || N.eqb c 41 || N.eqb c 44 || N.eqb c 59)%bool eqn:E.
    { rewrite !orb_true_iff, !N.eqb_eq in E. unfold word_char in Hc. lia. }
    rewrite IH by exact Hv. now rewrite <- app_assoc.
Qed.
Lemma sql_sep : forall w s, w <> [] -> sql_read w (32%N :: s) = w :: sql_read [] s.
Proof. intros [|x w] s H; [easy|reflexivity]. Qed.
Lemma sql_punct : forall c w s, (c = 40 \/ c = 41 \/ c = 44 \/ c = 59)%N -> w <> [] -> sql_read w (c :: s) = w :: [c] :: sql_read [] s.
Proof. intros c [|x w] s H1 H2; [easy|]. destruct H1 as [->|[->|[->| ->]]]; reflexivity. Qed.
Lemma sql_cols : forall cols s, cols <> [] -> Forall identifier cols ->
  sql_read [] (join (lit ", ") cols ++ 41%N :: s) = comma_list cols ++ lit ")" :: sql_read [] s.
Proof.
  induction cols as [|c cols IH]; intros s NE H; [easy|].
  inversion H as [|? ? [Hne Hc] Hcs]; subst.
  destruct cols as [|c2 cols].
  - cbn [join comma_list app]. rewrite sql_name by exact Hc. cbn [app]. rewrite sql_punct by (auto || lia). reflexivity.
  - change (join (lit ", ") (c :: c2 :: cols)) with (c ++ 44%N :: 32%N :: join (lit ", ") (c2 :: cols)).
    rewrite <- app_assoc, sql_name by exact Hc. cbn [app]. rewrite sql_punct by (auto || lia).
    change (sql_read [] (32%N :: ?x)) with (sql_read [] x).
    rewrite IH by (easy || exact Hcs). reflexivity.
Qed.
Lemma mysql_tokens : forall it, identifier (it_table it) -> it_cols it <> [] -> Forall identifier (it_cols it) ->
  sql_tokens (mysql_add_sql it) =
  [lit "ALTER"; lit "TABLE"; it_table it; lit "ADD"; lit "INDEX"; lit "("] ++ comma_list (it_cols it) ++ [lit ")"; lit ";"].
Proof.
  intros it [Ht1 Ht2] Hc1 Hc2. unfold sql_tokens, mysql_add_sql.
  change (sql_read [] (lit "ALTER TABLE " ++ ?x)) with (lit "ALTER" :: lit "TABLE" :: sql_read [] x).
  rewrite sql_name by exact Ht2. cbn [app].
  change (lit " ADD INDEX (" ++ ?x) with (32%N :: lit "ADD INDEX (" ++ x).
  rewrite sql_sep by exact Ht1.
  change (sql_read [] (lit "ADD INDEX (" ++ ?x)) with (lit "ADD" :: lit "INDEX" :: lit "(" :: sql_read [] x).
  change (lit ");") with (41%N :: lit ";"). rewrite sql_cols by assumption. reflexivity.
Qed.
Lemma pg_tokens : forall it, identifier (it_table it) -> it_cols it <> [] -> Forall identifier (it_cols it) ->
  sql_tokens (pg_add_sql it) =
  [lit "CREATE"; lit "INDEX"; lit "ON"; it_table it; lit "("] ++ comma_list (it_cols it) ++ [lit ")"; lit ";"].
Proof.
  intros it [Ht1 Ht2] Hc1 Hc2. unfold sql_tokens, pg_add_sql.
  change (sql_read [] (lit "CREATE INDEX ON " ++ ?x)) with (lit "CREATE" :: lit "INDEX" :: lit "ON" :: sql_read [] x).
  rewrite sql_name by exact Ht2. cbn [app].
  change (lit " (" ++ ?x) with (32%N :: 40%N :: x).
  rewrite sql_sep by exact Ht1.
  change (sql_read [] (40%N :: ?x)) with (lit "(" :: sql_read [] x).
  change (lit ");") with (41%N :: lit ";"). rewrite sql_cols by assumption. reflexivity.
Qed.
