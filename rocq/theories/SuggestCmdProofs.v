From Coq Require Import String List NArith ZArith Bool Lia.
From Verif Require Import Base Dec IndexText IndexTextSpec IndexTextProofs Examiner ExaminerSpec ExaminerProofs
  SuggestCmd SuggestCmdSpec.
Import ListNotations.

(** ** Tokenizing *)
Definition omap {A B} (f : A -> B) (o : option A) : option B :=
  match o with Some x => Some (f x) | None => None end.

(** Running the tokenizer over a known piece of text. *)
Fixpoint lex_run (q : N) (st : lex_state) (s : gostring) : list token * lex_state :=
  match s with
  | [] => ([], st)
  | c :: s' => let '(t, st') := lex_step q st c in
               let '(t2, st2) := lex_run q st' s' in (t ++ t2, st2)
  end.

Lemma lex_from_run : forall q a b st,
    lex_from q st (a ++ b) =
    omap (fun ts => fst (lex_run q st a) ++ ts) (lex_from q (snd (lex_run q st a)) b).
Proof.
  induction a as [|c a IH]; intros b st.
  - simpl. destruct (lex_from q st b); reflexivity.
  - cbn [app lex_from lex_run]. destruct (lex_step q st c) as [t st'].
    rewrite IH. destruct (lex_run q st' a) as [t2 st2]. simpl.
    destruct (lex_from q st2 b); simpl; auto. now rewrite app_assoc.
Qed.

(** A quoted word. *)
Lemma lex_quote_word : forall q w acc s, Forall word_char w -> (q = 96 \/ q = 34)%N ->
    lex_from q (LQuote acc) (w ++ q :: s) = lex_from q (LQuoteEnd (rev w ++ acc)) s.
Proof.
  induction w as [|c w IH]; intros acc s HF Hq.
  - cbn [app lex_from lex_step]. rewrite N.eqb_refl. simpl. destruct (lex_from q (LQuoteEnd acc) s); auto.
  - inversion HF; subst. cbn [app lex_from lex_step].
    destruct (N.eqb_spec c q) as [->|Hc].
    { unfold word_char in *. lia. }
    rewrite IH by auto. simpl. rewrite <- app_assoc. simpl.
    destruct (lex_from q (LQuoteEnd (rev w ++ c :: acc)) s); auto.
Qed.

Lemma lex_quoted : forall q w s, Forall word_char w -> (q = 96 \/ q = 34)%N ->
    lex_from q LStart ([q] ++ w ++ [q] ++ s) = lex_from q (LQuoteEnd (rev w)) s.
Proof.
  intros q w s H Hq. cbn [app lex_from lex_step]. unfold lex_plain.
  rewrite N.eqb_refl. rewrite lex_quote_word by auto. rewrite app_nil_r.
  destruct (lex_from q (LQuoteEnd (rev w)) s); auto.
Qed.
Lemma lex_mysql_quoted : forall w s, Forall word_char w ->
    lex_from 96%N LStart (bq ++ w ++ bq ++ s) = lex_from 96%N (LQuoteEnd (rev w)) s.
Proof. intros w s H. apply lex_quoted; auto. Qed.
Lemma lex_pg_quoted : forall w s, Forall word_char w ->
    lex_from 34%N LStart (dq ++ w ++ dq ++ s) = lex_from 34%N (LQuoteEnd (rev w)) s.
Proof. intros w s H. apply lex_quoted; auto. Qed.

(** The column list followed by the closing parenthesis. *)
Lemma lex_cols : forall q cols, (q = 96 \/ q = 34)%N -> cols <> [] -> Forall (Forall word_char) cols ->
    lex_from q LStart (join (lit ",") (map (fun c => [q] ++ c ++ [q]) cols) ++ lit ")")
    = Some (comma_separated (map TIdent cols) ++ [TSym 41%N]).
Proof.
  intros q cols Hq. induction cols as [|c cols IH]; intros Hne HF; [congruence|].
  inversion HF; subst.
  assert (Hc : forall s, lex_from q LStart (([q] ++ c ++ [q]) ++ s) = lex_from q (LQuoteEnd (rev c)) s).
  { intros s. rewrite <- !app_assoc. apply lex_quoted; auto. }
  destruct cols as [|d cols].
  - cbn [map join]. rewrite Hc. cbn [comma_separated map flat_map].
    destruct Hq; subst q; simpl; now rewrite rev_involutive.
  - change (map (fun c0 => [q] ++ c0 ++ [q]) (c :: d :: cols))
      with (([q] ++ c ++ [q]) :: map (fun c0 => [q] ++ c0 ++ [q]) (d :: cols)).
    assert (EJ : forall x y l, join (lit ",") (x :: y :: l) = x ++ lit "," ++ join (lit ",") (y :: l)) by reflexivity.
    change (map (fun c0 => [q] ++ c0 ++ [q]) (d :: cols))
      with (([q] ++ d ++ [q]) :: map (fun c0 => [q] ++ c0 ++ [q]) cols) in *.
    rewrite EJ. rewrite <- app_assoc. rewrite Hc.
    rewrite <- app_assoc. rewrite (lex_from_run q (lit ",")).
    assert (ER : lex_run q (LQuoteEnd (rev c)) (lit ",") = ([TIdent c; TSym 44%N], LStart)).
    { destruct Hq; subst q; simpl; now rewrite rev_involutive. }
    rewrite ER. cbn [fst snd]. rewrite IH by (auto; congruence). reflexivity.
Qed.

Lemma mysql_create_tokens : forall name it, Forall word_char name -> Forall word_char (it_table it) ->
    it_cols it <> [] ->
    lex_mysql (mysql_create_sql name it) = Some (intended_mysql_create name (it_table it) (map safe_name (it_cols it))).
Proof.
  intros name it Hn Ht Hc. unfold lex_mysql, mysql_create_sql.
  change (lit "ALTER TABLE `") with (lit "ALTER TABLE " ++ bq). rewrite <- app_assoc.
  rewrite lex_from_run. change (lex_run 96%N LStart (lit "ALTER TABLE ")) with ([TWord (lit "ALTER"); TWord (lit "TABLE")], LStart).
  cbn [fst snd].
  change (lit "` ADD INDEX `") with (bq ++ lit " ADD INDEX " ++ bq). rewrite <- !app_assoc.
  rewrite lex_mysql_quoted by auto.
  rewrite lex_from_run.
  assert (E1 : lex_run 96%N (LQuoteEnd (rev (it_table it))) (lit " ADD INDEX ") =
               ([TIdent (it_table it); TWord (lit "ADD"); TWord (lit "INDEX")], LStart)).
  { simpl. now rewrite rev_involutive. }
  rewrite E1. cbn [fst snd].
  change (lit "` (") with (bq ++ lit " ("). rewrite <- !app_assoc. rewrite lex_mysql_quoted by auto.
  rewrite lex_from_run.
  assert (E2 : lex_run 96%N (LQuoteEnd (rev name)) (lit " (") = ([TIdent name; TSym 40%N], LStart)).
  { simpl. now rewrite rev_involutive. }
  rewrite E2. cbn [fst snd].
  rewrite <- (map_map safe_name (fun c => bq ++ c ++ bq)).
  rewrite (lex_cols 96%N); auto.
  - destruct (it_cols it); simpl; congruence.
  - apply Forall_forall. intros x Hx. apply in_map_iff in Hx. destruct Hx as (y & <- & _). apply safe_name_words.
Qed.

Lemma mysql_drop_tokens : forall name it, Forall word_char name -> Forall word_char (it_table it) ->
    lex_mysql (mysql_drop_sql name it) = Some (intended_mysql_drop name (it_table it)).
Proof.
  intros name it Hn Ht. unfold lex_mysql, mysql_drop_sql.
  change (lit "ALTER TABLE `") with (lit "ALTER TABLE " ++ bq). rewrite <- app_assoc.
  rewrite lex_from_run. change (lex_run 96%N LStart (lit "ALTER TABLE ")) with ([TWord (lit "ALTER"); TWord (lit "TABLE")], LStart).
  cbn [fst snd].
  change (lit "` DROP INDEX `") with (bq ++ lit " DROP INDEX " ++ bq). rewrite <- !app_assoc.
  rewrite lex_mysql_quoted by auto.
  rewrite lex_from_run.
  assert (E1 : lex_run 96%N (LQuoteEnd (rev (it_table it))) (lit " DROP INDEX ") =
               ([TIdent (it_table it); TWord (lit "DROP"); TWord (lit "INDEX")], LStart)).
  { simpl. now rewrite rev_involutive. }
  rewrite E1. cbn [fst snd].
  change (lit "`") with (bq ++ []). rewrite lex_mysql_quoted by auto.
  simpl. now rewrite rev_involutive.
Qed.

Lemma pg_create_tokens : forall name it, Forall word_char name -> Forall word_char (it_table it) ->
    it_cols it <> [] ->
    lex_pg (pg_create_sql name it) = Some (intended_pg_create name (it_table it) (map safe_name (it_cols it))).
Proof.
  intros name it Hn Ht Hc. unfold lex_pg, pg_create_sql.
  rewrite lex_from_run. change (lex_run 34%N LStart (lit "CREATE INDEX ")) with ([TWord (lit "CREATE"); TWord (lit "INDEX")], LStart).
  cbn [fst snd].
  rewrite lex_pg_quoted by auto. rewrite lex_from_run.
  assert (E1 : lex_run 34%N (LQuoteEnd (rev name)) (lit " ON ") = ([TIdent name; TWord (lit "ON")], LStart)).
  { simpl. now rewrite rev_involutive. }
  rewrite E1. cbn [fst snd]. rewrite lex_pg_quoted by auto. rewrite lex_from_run.
  assert (E2 : lex_run 34%N (LQuoteEnd (rev (it_table it))) (lit " (") = ([TIdent (it_table it); TSym 40%N], LStart)).
  { simpl. now rewrite rev_involutive. }
  rewrite E2. cbn [fst snd].
  rewrite <- (map_map safe_name (fun c => dq ++ c ++ dq)).
  rewrite (lex_cols 34%N); auto.
  - destruct (it_cols it); simpl; congruence.
  - apply Forall_forall. intros x Hx. apply in_map_iff in Hx. destruct Hx as (y & <- & _). apply safe_name_words.
Qed.

Lemma pg_drop_tokens : forall name it, Forall word_char name ->
    lex_pg (pg_drop_sql name it) = Some (intended_pg_drop name).
Proof.
  intros name it Hn. unfold lex_pg, pg_drop_sql.
  rewrite lex_from_run. change (lex_run 34%N LStart (lit "DROP INDEX ")) with ([TWord (lit "DROP"); TWord (lit "INDEX")], LStart).
  cbn [fst snd]. change (dq ++ name ++ dq) with (dq ++ name ++ dq ++ []). 
  rewrite <- (app_nil_r dq) at 2. rewrite lex_pg_quoted by auto.
  simpl. now rewrite rev_involutive.
Qed.

(** ** Commands *)
Lemma examination_map : forall tr, examination (map CeExamine tr) = tr.
Proof. induction tr; simpl; auto. now f_equal. Qed.
Lemma examination_app : forall a b, examination (a ++ b) = examination a ++ examination b.
Proof. intros; apply flat_map_app. Qed.

Section Cmds.
  Context {W : Type} (env : cmd_env W) (unix : N) (rnds : nat -> N).

  Definition chosen (var_targets its : list index_target) : list index_target :=
    match var_targets with [] => filter is_safe its | _ => var_targets end.

  Lemma finish_spec : forall runs output w vt its tr w' r,
      finish env unix rnds runs output w vt its = (tr, w', r) ->
      (runs = false /\ examination tr = []) \/
      (runs = true /\ exists w1 r1, run (env_db env) w unix rnds (chosen vt its) = (examination tr, w1, r1) /\
         (r = Ok tt -> exists er, r1 = Ok er)).
  Proof.
    intros runs output w vt its tr w' r H. unfold finish in H. destruct runs.
    - right. split; auto. unfold cmd_examine in H.
      change (match vt with [] => filter is_safe its | _ :: _ => vt end) with (chosen vt its) in H.
      destruct (run (env_db env) w unix rnds (chosen vt its)) as [[tr1 w1] r1].
      exists w1, r1. destruct r1 as [er|e|].
      + destruct output; [inversion H; subst; rewrite examination_map; eauto|].
        destruct (env_html env w1 its (Some er)); inversion H; subst;
          rewrite examination_app, examination_map; simpl; rewrite app_nil_r; eauto.
      + inversion H; subst. rewrite examination_map. split; auto. congruence.
      + inversion H; subst. rewrite examination_map. split; auto. congruence.
    - left. split; auto. destruct output; [inversion H; subst; auto|].
      destruct (env_html env w its None); inversion H; subst; auto.
  Qed.

  (** What both commands have in common. *)
  Definition cmd_shape (runs : bool) (texts : list gostring) (tr : list cmd_event) (r : outcome unit) : Prop :=
    (examination tr = [] /\ (runs = true -> r <> Ok tt)) \/
    (runs = false /\ examination tr = []) \/
    (runs = true /\ exists vt its w w0 w1 w2 r1,
        new_index_targets_from_texts texts = Ok vt /\ env_suggest env w = (w0, inl its) /\
        run (env_db env) w1 unix rnds (chosen vt its) = (examination tr, w2, r1) /\
        (r = Ok tt -> exists er, r1 = Ok er)).

  Lemma sql_suggest_shape : forall runs texts output w tr w' r,
      sql_suggest env unix rnds runs texts output w = (tr, w', r) -> cmd_shape runs texts tr r.
  Proof.
    intros runs texts output w tr w' r H. unfold sql_suggest in H. unfold cmd_shape.
    destruct (new_index_targets_from_texts texts) as [vt|e|].
    - destruct (env_explain env w) as [w1 [e|]].
      + inversion H; subst. left; split; auto; congruence.
      + destruct (env_suggest env w1) as [w2 [its|e]] eqn:ES.
        * destruct (finish env unix rnds runs output w2 vt its) as [[tr1 w3] r1] eqn:EF.
          inversion H; subst. apply finish_spec in EF. destruct EF as [[-> EF]|(-> & w4 & r1 & EF & Hr)].
          -- right; left. split; auto.
          -- right; right. split; auto. exists vt, its, w1, w2, w2, w4, r1. auto.
        * inversion H; subst. left; split; auto; congruence.
    - inversion H; subst. left; split; auto; congruence.
    - inversion H; subst. left; split; auto; congruence.
  Qed.

  Lemma hasura_suggest_shape : forall runs texts output w tr w' r,
      hasura_suggest env unix rnds runs texts output w = (tr, w', r) -> cmd_shape runs texts tr r.
  Proof.
    intros runs texts output w tr w' r H. unfold hasura_suggest in H. unfold cmd_shape.
    destruct (env_explain env w) as [w1 [e|]].
    - inversion H; subst. left; split; auto; congruence.
    - destruct (env_suggest env w1) as [w2 [its|e]] eqn:ES.
      + destruct (new_index_targets_from_texts texts) as [vt|e|].
        * destruct (finish env unix rnds runs output w2 vt its) as [[tr1 w3] r1] eqn:EF.
          inversion H; subst. apply finish_spec in EF. destruct EF as [[-> EF]|(-> & w4 & r1 & EF & Hr)].
          -- right; left. split; auto.
          -- right; right. split; auto. exists vt, its, w1, w2, w2, w4, r1. auto.
        * inversion H; subst. left; split; auto; congruence.
        * inversion H; subst. left; split; auto; congruence.
      + inversion H; subst. left; split; auto; congruence.
  Qed.

  Lemma cmd_no_ddl : forall runs texts tr r, cmd_shape runs texts tr r -> runs = false -> examination tr = [].
  Proof.
    intros runs texts tr r [[H _]|[[_ H]|(-> & _)]] Hr; auto; discriminate.
  Qed.

  Lemma cmd_targets : forall runs texts tr r, cmd_shape runs texts tr r ->
      exists targets rest,
        (asked (examination tr) <> [] ->
           (texts <> [] /\ new_index_targets_from_texts texts = Ok targets) \/
           (texts = [] /\ exists w w0 its, env_suggest env w = (w0, inl its) /\ targets = filter is_safe its)) /\
        targets = asked (examination tr) ++ rest /\
        (runs = true -> r = Ok tt -> rest = [] /\
           ((texts <> [] /\ new_index_targets_from_texts texts = Ok targets) \/
           (texts = [] /\ exists w w0 its, env_suggest env w = (w0, inl its) /\ targets = filter is_safe its))).
  Proof.
    intros runs texts tr r [[H HN]|[[-> H]|(-> & vt & its & w & w0 & w1 & w2 & r1 & Hp & Hs & Hrun & Hr)]].
    - exists [], []. rewrite H. simpl. split; [congruence|]. split; auto. intros ? ?. exfalso. now apply HN.
    - exists [], []. rewrite H. simpl. split; [congruence|]. split; auto. discriminate.
    - assert (HC : (texts <> [] /\ new_index_targets_from_texts texts = Ok (chosen vt its)) \/
           (texts = [] /\ exists w w0 its', env_suggest env w = (w0, inl its') /\ chosen vt its = filter is_safe its')).
      { destruct texts as [|t ts].
        - simpl in Hp. inversion Hp; subst. right. split; auto. simpl. eauto 10.
        - left. split; [congruence|]. apply parse_texts_iff in Hp. inversion Hp as [|? y ? l' ? ?]; subst. cbn [chosen].
          change (new_index_targets_from_texts (t :: ts) = Ok (y :: l')).
          apply parse_texts_iff. constructor; auto. }
      pose proof (run_shape _ _ _ _ _ _ _ _ Hrun) as HS.
      destruct (run_asked _ _ _ HS) as (rest & E & HE).
      exists (chosen vt its), rest. split; [intros _; exact HC|]. split; auto.
  Qed.

  (** Every create/drop call is for a word-only index name and a safe target. *)
  Lemma cmd_calls_safe : forall runs texts tr r, cmd_shape runs texts tr r ->
      forall n it a, In (EvCreate n it a) (examination tr) \/ In (EvDrop n it a) (examination tr) ->
        identifier n /\ identifier (it_table it) /\ Forall (Forall word_char) (it_cols it).
  Proof.
    intros runs texts tr r [[H HN]|[[-> H]|(-> & vt & its & w & w0 & w1 & w2 & r1 & Hp & Hs & Hrun & Hr)]] n it a HI.
    - rewrite H in HI. simpl in HI; tauto.
    - rewrite H in HI. simpl in HI; tauto.
    - destruct (run_names _ _ _ _ _ _ _ _ Hrun _ _ _ HI) as [Hin [j ->]].
      split; [apply idx_name_identifier|].
      assert (HC : In it vt \/ is_safe it = true).
      { unfold chosen in Hin. destruct vt; [|left; auto]. right. apply filter_In in Hin. tauto. }
      destruct HC as [HC|HC].
      + apply parse_texts_iff in Hp. clear - Hp HC.
        induction Hp as [|t it0 ts its0 H1 H2 IH]; [destruct HC|]. destruct HC as [->|HC]; auto.
        apply parse_sound in H1. destruct H1 as (H1 & _ & H3 & _). split; auto.
        eapply Forall_impl; [|exact H3]. intros x [_ Hx]; auto.
      + apply is_safe_iff in HC. exact HC.
  Qed.

  (** If suggestions have columns, so do all examined targets. *)
  Lemma cmd_calls_cols : forall runs texts tr r, cmd_shape runs texts tr r ->
      (forall w w0 its, env_suggest env w = (w0, inl its) -> Forall (fun it => it_cols it <> []) its) ->
      forall n it a, In (EvCreate n it a) (examination tr) -> it_cols it <> [].
  Proof.
    intros runs texts tr r [[H HN]|[[-> H]|(-> & vt & its & w & w0 & w1 & w2 & r1 & Hp & Hs & Hrun & Hr)]] HE n it a HI.
    - rewrite H in HI. simpl in HI; tauto.
    - rewrite H in HI. simpl in HI; tauto.
    - destruct (run_names _ _ _ _ _ _ _ _ Hrun _ _ _ (or_introl HI)) as [Hin _].
      unfold chosen in Hin. destruct vt as [|v vt].
      + apply filter_In in Hin. specialize (HE _ _ _ Hs). rewrite Forall_forall in HE. apply HE; tauto.
      + apply parse_texts_iff in Hp. clear - Hp Hin.
        remember (v :: vt) as l eqn:El. clear El.
        induction Hp as [|t it0 ts its0 H1 H2 IH]; [destruct Hin|]. destruct Hin as [->|Hin]; auto.
        apply parse_sound in H1. tauto.
  Qed.
End Cmds.
