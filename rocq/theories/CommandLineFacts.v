(** Facts about the commands of the program and about reading what was set.
    None of the definitions in this file has lines in /repo of its own. *)
From Coq Require Import String List NArith ZArith Bool Lia Arith Permutation.
From Verif Require Import Base CommandLine CommandLineSpec CommandLineProofs.
Import ListNotations.

(** ** Helper facts *)
Definition same_shape (f g : flag) : bool :=
  seqb (fl_name f) (fl_name g) &&
  match fl_short f, fl_short g with Some a, Some b => N.eqb a b | None, None => true | _, _ => false end &&
  match fl_kind f, fl_kind g with KBool, KBool | KString, KString | KArray, KArray | KInt, KInt => true | _, _ => false end.
Lemma same_shape_eq : forall f g, same_shape f g = true -> fl_name f = fl_name g /\ fl_short f = fl_short g /\ fl_kind f = fl_kind g.
Proof.
  unfold same_shape. intros [n s k r] [n' s' k' r']. cbn [fl_name fl_short fl_kind].
  rewrite !andb_true_iff, seqb_eq. intros [[-> E] K]. split; [reflexivity|]. split.
  - destruct s, s'; try discriminate; [|reflexivity]. apply N.eqb_eq in E. now subst.
  - destruct k, k'; try discriminate; reflexivity.
Qed.
Definition coversb (fs gs : list flag) : bool := forallb (fun f => existsb (same_shape f) gs) fs.
Definition covers (fs gs : list flag) : Prop :=
  forall f, In f fs -> exists g, In g gs /\ fl_name f = fl_name g /\ fl_short f = fl_short g /\ fl_kind f = fl_kind g.
Lemma coversb_ok : forall fs gs, coversb fs gs = true -> covers fs gs.
Proof.
  intros fs gs H f I. unfold coversb in H. rewrite forallb_forall in H. apply H in I. apply existsb_exists in I as (g & IG & E).
  exists g. split; [exact IG|]. now apply same_shape_eq.
Qed.

Section Covering.
  Context (pi : gostring -> outcome Z) (fs gs : list flag) (C : covers fs gs).
  Lemma fits_shape : forall f g v, fl_kind f = fl_kind g -> fits pi f v -> fits pi g v.
  Proof. intros f g v E. unfold fits. now rewrite E. Qed.
  Lemma letter_cover : forall c f, letter fs c f -> exists g, letter gs c g /\ fl_name f = fl_name g /\ fl_kind f = fl_kind g.
  Proof. intros c f [I E]. destruct (C f I) as (g & IG & N & S' & K). exists g. unfold letter. rewrite <- S'. auto. Qed.
  Lemma group_cover : forall s n st, group pi fs s n st -> group pi gs s n st.
  Proof.
    induction 1 as [|r|c f r n st NT L K NJ G IH|c f d v NT L FI|c f d v NT L K NJ FI|c f v L K FI].
    - constructor.
    - constructor.
    - destruct (letter_cover c f L) as (g & LG & -> & EK). apply g_switch; auto. now rewrite <- EK.
    - destruct (letter_cover c f L) as (g & LG & -> & EK). apply g_equals; auto. eapply fits_shape; eauto.
    - destruct (letter_cover c f L) as (g & LG & -> & EK). apply g_attached; auto; [now rewrite <- EK|eapply fits_shape; eauto].
    - destruct (letter_cover c f L) as (g & LG & -> & EK). apply g_next; auto; [now rewrite <- EK|eapply fits_shape; eauto].
  Qed.
  Lemma reads_cover : forall args st ws, reads pi fs args st ws -> reads pi gs args st ws.
  Proof.
    induction 1 as [|w args st ws P R IH|args|f v args st ws I FI R IH|f args st ws I K R IH|f v args st ws I K FI R IH
                    |c r set args st ws NC G R IH|c r v set args st ws NC G R IH].
    - constructor.
    - now constructor.
    - constructor.
    - destruct (C f I) as (g & IG & -> & _ & EK). apply r_equals; auto. eapply fits_shape; eauto.
    - destruct (C f I) as (g & IG & -> & _ & EK). apply r_switch; auto. now rewrite <- EK.
    - destruct (C f I) as (g & IG & -> & _ & EK). apply r_value; auto; [now rewrite <- EK|eapply fits_shape; eauto].
    - apply r_group; auto. now apply group_cover.
    - apply r_group_next; auto. now apply group_cover.
  Qed.
End Covering.

Fixpoint nodup_names (l : list gostring) : bool :=
  match l with [] => true | n :: l' => negb (existsb (seqb n) l') && nodup_names l' end.
Lemma nodup_names_ok : forall l, nodup_names l = true -> NoDup l.
Proof.
  induction l as [|n l IH]; cbn [nodup_names]; [constructor|]. rewrite andb_true_iff, negb_true_iff. intros [E H].
  constructor; [|auto]. intros I. apply not_true_iff_false in E. apply E. apply existsb_exists. exists n. split; [exact I|apply seqb_refl].
Qed.
Fixpoint shorts_apart (l : list flag) : bool :=
  match l with
  | [] => true
  | f :: l' => negb (match fl_short f with
                     | Some c => existsb (fun g => match fl_short g with Some d => N.eqb c d | None => false end) l'
                     | None => false end) && shorts_apart l'
  end.
Lemma shorts_apart_ok : forall l, shorts_apart l = true ->
  forall f g c, In f l -> In g l -> fl_short f = Some c -> fl_short g = Some c -> f = g.
Proof.
  induction l as [|h l IH]; cbn [shorts_apart]; [intros _ f g c []|]. rewrite andb_true_iff, negb_true_iff. intros [E H].
  assert (forall g c, In g l -> fl_short h = Some c -> fl_short g = Some c -> False) as NO.
  { intros g c I S1 S2. rewrite S1 in E. apply not_true_iff_false in E. apply E. apply existsb_exists. exists g.
    split; [exact I|]. rewrite S2. apply N.eqb_refl. }
  intros f g c [<- | IF] [<- | IG] S1 S2; [reflexivity|destruct (NO g c)|destruct (NO f c)|]; eauto.
Qed.
Definition distinctb (fs : list flag) : bool :=
  nodup_names (map fl_name fs) && shorts_apart fs &&
  forallb (fun f => match fl_name f with [] => false | c :: _ => negb (N.eqb c 45) end && negb (has_rune 61 (fl_name f))) fs.
Lemma has_rune_ok : forall c s, has_rune c s = false -> ~ In c s.
Proof.
  induction s as [|d r IH]; cbn [has_rune]; [intros _ []|]. rewrite orb_false_iff, N.eqb_neq. intros [N H] [-> | I]; [congruence|].
  now apply IH.
Qed.
Lemma distinctb_ok : forall fs, distinctb fs = true -> distinct fs.
Proof.
  intros fs. unfold distinctb. rewrite !andb_true_iff. intros [[N S'] F]. unfold distinct. split; [|split].
  - now apply nodup_names_ok.
  - now apply shorts_apart_ok.
  - intros f I. rewrite forallb_forall in F. apply F in I. rewrite andb_true_iff, negb_true_iff in I. destruct I as [H E].
    apply has_rune_ok in E. destruct (fl_name f) as [|c r]; [discriminate|]. exists c, r. split; [reflexivity|].
    split; [|exact E]. apply negb_true_iff, N.eqb_neq in H. exact H.
Qed.

(** ** Reading what was set *)
Lemma values_app : forall n a b, values n (a ++ b) = values n a ++ values n b.
Proof. intros n a b. unfold values. now rewrite filter_app, map_app. Qed.
Lemma values_in : forall n st, values n st = [] <-> ~ In n (map fst st).
Proof.
  intros n st. unfold values. induction st as [|[m v] st IH]; cbn [filter map fst In].
  - split; auto.
  - destruct (seqb_spec m n) as [->|E]; cbn [map].
    + split; [discriminate|]. intros H. destruct H. now left.
    + rewrite IH. split; [intros H [X|X]; auto|auto].
Qed.
Lemma last_given_values : forall n st v, last_given n st v <-> exists l, values n st = l ++ [v].
Proof.
  intros n st v. split.
  - intros (b & a & -> & NI). exists (values n b). rewrite values_app. f_equal.
    apply values_in in NI. unfold values in *. cbn [filter fst]. rewrite seqb_refl. cbn [map snd]. now rewrite NI.
  - induction st as [|[m w] st IH]; intros [l E].
    + destruct l; discriminate.
    + destruct (runes_eq_dec m n) as [->|N].
      * unfold values in E. cbn [filter fst] in E. rewrite seqb_refl in E. cbn [map snd] in E. fold (values n st) in E.
        destruct l as [|x l].
        -- injection E as -> E. exists [], st. split; [reflexivity|]. now apply values_in.
        -- injection E as -> E. destruct (IH (ex_intro _ l E)) as (b & a & -> & NI). exists ((n, x) :: b), a. split; [reflexivity|exact NI].
      * unfold values in E. cbn [filter fst] in E. apply seqb_neq in N. rewrite N in E. fold (values n st) in E.
        destruct (IH (ex_intro _ l E)) as (b & a & -> & NI). exists ((m, w) :: b), a. split; [reflexivity|exact NI].
Qed.
Lemma last_or : forall n st, (exists v, last_given n st v) \/ ~ In n (map fst st).
Proof.
  intros n st. destruct (values n st) as [|x l] eqn:V using rev_ind.
  - right. now apply values_in.
  - left. exists x. apply last_given_values. eauto.
Qed.
Lemma string_of_worth : forall n d st, worth n d st (string_of n d st).
Proof.
  intros n d st. unfold worth, string_of. destruct (last_or n st) as [[v L] | N].
  - left. pose proof L as L'. apply last_given_values in L as [l ->]. now rewrite last_last.
  - right. split; [exact N|]. apply values_in in N as ->. reflexivity.
Qed.
Lemma last_given_fun : forall n st v w, last_given n st v -> last_given n st w -> v = w.
Proof.
  intros n st v w H1 H2. apply last_given_values in H1 as [l E1]. apply last_given_values in H2 as [l' E2].
  rewrite E1 in E2. now apply app_inj_tail in E2.
Qed.
Lemma last_given_in : forall n st v, last_given n st v -> In n (map fst st).
Proof. intros n st v (b & a & -> & _). rewrite map_app, in_app_iff. right. now left. Qed.
Lemma parse_bool_yes : forall v, parse_bool v = Some true <-> says_yes v.
Proof.
  intros v. unfold parse_bool, says_yes.
  assert (forall l, existsb (seqb v) l = true <-> In v l) as EX.
  { intros l. rewrite existsb_exists. split.
    - intros (x & Hx & E). apply seqb_eq in E as ->. exact Hx.
    - intros H. exists v. split; [exact H|apply seqb_refl]. }
  rewrite <- EX. destruct (existsb _ _); [tauto|]. destruct (existsb _ _); split; discriminate.
Qed.
Lemma bool_of_yes : forall n st, bool_of n st = true <-> exists v, last_given n st v /\ says_yes v.
Proof.
  intros n st. unfold bool_of. pose proof (string_of_worth n (lit "false") st) as W.
  destruct W as [L | [N E]].
  - split.
    + intros H. exists (string_of n (lit "false") st). split; [exact L|]. apply parse_bool_yes.
      destruct (parse_bool _) as [[]|]; [reflexivity|discriminate|discriminate].
    + intros (v & L' & Y). rewrite (last_given_fun _ _ _ _ L L'). apply parse_bool_yes in Y as ->. reflexivity.
  - split; [|intros (v & L & _); destruct N; eapply last_given_in; eauto]. rewrite E. discriminate.
Qed.
Lemma values_all : forall n st, all_given n st (values n st).
Proof.
  intros n st. induction st as [|[m v] st IH]; [constructor|]. unfold values. cbn [filter fst].
  destruct (seqb_spec m n) as [->|N]; [now constructor|]. now constructor.
Qed.

(** ** Finding the command *)
Lemma find_leaf : forall inh c args, cmd_subs c = [] -> find_cmd inh c args = (c, cmd_own c ++ cmd_persistent c ++ inh, args).
Proof.
  intros inh [n own pers subs runs] args E. cbn [cmd_subs] in E. subst subs. cbn [find_cmd cmd_own cmd_persistent].
  destruct (strip_flags _ args); reflexivity.
Qed.
Lemma find_step : forall inh c n args d, plain n -> n <> [] -> n <> lit "-" ->
  List.find (fun d => seqb (cmd_name d) n) (cmd_subs c) = Some d ->
  find_cmd inh c (n :: args) = find_cmd (cmd_persistent c ++ inh) d args.
Proof.
  intros inh [m own pers subs runs] n args d P N1 N2 F. cbn [cmd_subs] in F. cbn [find_cmd cmd_persistent].
  set (fs := own ++ pers ++ inh).
  assert (dashed n = false) as D.
  { destruct P as [-> | [-> | (c & r & -> & NC)]]; [reflexivity|congruence|]. cbn. now apply N.eqb_neq. }
  assert (seqb n (lit "--") = false) as ND by (apply seqb_neq; intros ->; discriminate).
  assert (skips_next fs n = false) as SK.
  { unfold skips_next. rewrite (look_plain n P). now rewrite andb_false_r. }
  assert (strip_flags fs (n :: args) = n :: strip_flags fs args) as ->.
  { cbn [strip_flags]. rewrite ND, SK, D. rewrite (proj2 (seqb_neq n []) N1). reflexivity. }
  assert (minus_first fs (n :: args) n = args) as M.
  { cbn [minus_first]. rewrite ND, SK, D, seqb_refl. reflexivity. }
  generalize (Cmd m own pers subs runs) as c0. intros c0.
  induction subs as [|e subs IH]; [discriminate|]. cbn [List.find] in F.
  destruct (seqb (cmd_name e) n).
  - injection F as ->. now rewrite M.
  - apply IH. exact F.
Qed.
Lemma stripped_first : forall fs args next rest, strip_flags fs args = next :: rest -> Permutation args (next :: minus_first fs args next).
Proof.
  intros fs args. remember (length args) as n eqn:EN. revert args EN. induction n as [n IH] using lt_wf_ind. intros [|w args] EN next rest H; [discriminate|].
  cbn [strip_flags minus_first] in *. destruct (seqb w (lit "--")); [discriminate|]. destruct (skips_next fs w).
  - destruct args as [|v [|x args2]]; try discriminate. subst n.
    rewrite (IH (length (x :: args2)) ltac:(cbn; lia) (x :: args2) eq_refl next rest H) at 1.
    rewrite (perm_swap next v), (perm_swap next w). reflexivity.
  - destruct (dashed w) eqn:D; cbn [negb andb] in *.
    + subst n. rewrite (IH (length args) ltac:(cbn; lia) args eq_refl next rest H) at 1. apply perm_swap.
    + destruct (seqb_spec w []) as [->|NE]; cbn [negb] in *.
      * subst n. destruct (seqb_spec [] next) as [<-|NN]; [reflexivity|].
        rewrite (IH (length args) ltac:(cbn; lia) args eq_refl next rest H) at 1. apply perm_swap.
      * injection H as <- _. now rewrite seqb_refl.
Qed.
Lemma find_cases : forall inh c args, find_cmd inh c args = (c, cmd_own c ++ cmd_persistent c ++ inh, args) \/
  exists d args', In d (cmd_subs c) /\ Permutation args (cmd_name d :: args') /\ find_cmd inh c args = find_cmd (cmd_persistent c ++ inh) d args'.
Proof.
  intros inh [n own pers subs runs] args. cbn [find_cmd cmd_own cmd_persistent cmd_subs].
  destruct (strip_flags _ args) as [|next rest] eqn:ST; [now left|]. apply stripped_first in ST.
  set (whole := Cmd n own pers subs runs). generalize whole as c0. intros c0. clear whole. revert ST. generalize (own ++ pers ++ inh) as fs. intros fs ST.
  induction subs as [|e subs IH]; [now left|]. cbn [In].
  destruct (seqb_spec (cmd_name e) next) as [<-|NE]; [right; eauto 6|].
  destruct IH as [H | (d & a & I & P & H)]; [now left|right]. exists d, a. split; [now right|auto].
Qed.

Lemma missing_nil : forall fs st, missing_flags fs st = [] <-> (forall f, In f fs -> fl_required f = true -> In (fl_name f) (map fst st)).
Proof.
  intros fs st. unfold missing_flags.
  assert (forall l, fold_right insert_name [] l = [] <-> l = []) as FN.
  { intros [|n l]; [split; auto|]. cbn [fold_right]. split; [|discriminate]. destruct (fold_right insert_name [] l); cbn [insert_name]; [discriminate|].
    destruct (sltb _ _); discriminate. }
  rewrite FN. assert (forall n, changed n st = true <-> In n (map fst st)) as CH.
  { intros n. unfold changed. pose proof (values_in n st) as V. destruct (values n st).
    - split; [discriminate|]. intros I. destruct V as [V _]. now destruct (V eq_refl).
    - split; [|reflexivity]. intros _. destruct (in_dec runes_eq_dec n (map fst st)) as [I|I]; [exact I|].
      apply V in I. discriminate. }
  split.
  - intros H f I R. apply map_eq_nil in H. apply CH. destruct (changed (fl_name f) st) eqn:E; [reflexivity|].
    exfalso. assert (In f []) as []. rewrite <- H. apply filter_In. split; [exact I|]. now rewrite R, E.
  - intros H. induction fs as [|f fs IH]; [reflexivity|]. cbn [filter].
    destruct (fl_required f) eqn:R; cbn [andb].
    + rewrite (proj2 (CH (fl_name f)) (H f (or_introl eq_refl) R)). cbn [negb]. apply IH. intros g I. apply H. now right.
    + apply IH. intros g I. apply H. now right.
Qed.

(** the command of a job and the flags that reach it *)
Definition leaf (j : job) : command :=
  match j with
  | MysqlCmd => mysql_cmd | PostgresCmd => postgres_cmd | HasuraPostgresCmd => hasura_postgres_cmd | InsightsCmd => insights_cmd
  | JaegerCmd => jaeger_cmd | VersionCmd => version_cmd
  | HelpCmd => Cmd (lit "help") [] [] [] (Some HelpCmd) | CompletionCmd => Cmd (lit "completion") [] [] [] (Some CompletionCmd)
  end.
Definition flags_at (j : job) : list flag :=
  cmd_own (leaf j) ++ cmd_persistent (leaf j) ++
  match j with
  | MysqlCmd | PostgresCmd | HasuraPostgresCmd | InsightsCmd => cmd_persistent db_cmd ++ cmd_persistent root_cmd
  | JaegerCmd => cmd_persistent app_cmd ++ cmd_persistent root_cmd
  | _ => cmd_persistent root_cmd
  end.
Ltac plainly := solve [right; right; eexists; eexists; split; [reflexivity|discriminate]].
Lemma find_path : forall j args, find_cmd [] root_cmd (path j ++ args) = (leaf j, flags_at j, args).
Proof.
  intros j args. destruct j; cbn [path app];
    repeat (erewrite find_step; [|plainly|discriminate|discriminate|reflexivity]); apply find_leaf; reflexivity.
Qed.
Lemma found_job : forall argv c fs args j, find_cmd [] root_cmd argv = (c, fs, args) -> cmd_runs c = Some j ->
  c = leaf j /\ fs = flags_at j /\ Permutation argv (path j ++ args).
Proof.
  intros argv c fs args j F R. assert (Permutation argv ([] ++ argv)) as P by reflexivity. revert P. generalize argv at 1 3. intros whole P.
  pose proof (P : Permutation whole ([] ++ argv)) as P'. clear P.
  repeat match goal with
  | F : find_cmd ?inh ?d ?a = (c, fs, args), P : Permutation whole (?before ++ ?a) |- _ =>
      let E := fresh in let X := fresh in let Y := fresh in let I := fresh in let Q := fresh in
      destruct (find_cases inh d a) as [E | (X & Y & I & Q & E)]; rewrite E in F; clear E;
      [injection F as <- <- <-; cbn in R; first [discriminate R|injection R as <-; split; [reflexivity|split; [reflexivity|exact P]]]
      |cbn [cmd_subs root_cmd db_cmd app_cmd suggest_cmd db_dig_cmd app_dig_cmd hasura_cmd mysql_cmd postgres_cmd hasura_postgres_cmd insights_cmd jaeger_cmd version_cmd In] in I;
       rewrite Q in P; clear Q;
       repeat (destruct I as [<- | I]); try destruct I;
       match type of P with Permutation whole (?b ++ ?x :: ?r) =>
         assert (Permutation whole ((b ++ [x]) ++ r)) by (rewrite <- app_assoc; exact P); clear P end]
  end.
Qed.
Lemma flags_distinct : forall j, distinct (flags_at j ++ [help_flag]).
Proof. intros j. apply distinctb_ok. destruct j; reflexivity. Qed.
Lemma flags_table : forall j, covers (flags_at j ++ [help_flag]) (table j) /\ covers (table j) (flags_at j ++ [help_flag]).
Proof. intros j. split; apply coversb_ok; destruct j; reflexivity. Qed.
Lemma flags_required : forall j (st : settings), (forall f, In f (flags_at j) -> fl_required f = true -> In (fl_name f) (map fst st)) <->
  (forall n, In n (required j) -> In n (map fst st)).
Proof.
  intros j st. generalize (map fst st) as given. intros given.
  assert (forall fs ns, map fl_name (filter fl_required fs) = ns ->
    ((forall f, In f fs -> fl_required f = true -> In (fl_name f) given) <-> (forall n, In n ns -> In n given))) as H.
  { intros fs ns <-. split.
    - intros A n I. apply in_map_iff in I as (f & <- & I). apply filter_In in I as [I R]. auto.
    - intros A f I R. apply A. apply in_map. apply filter_In. auto. }
  assert (forall ns ms, (forall n : gostring, In n ns <-> In n ms) -> ((forall n, In n ns -> In n given) <-> (forall n, In n ms -> In n given))) as P.
  { intros ns ms E. split; intros A n I; apply A, E, I. }
  rewrite (H _ _ eq_refl). apply P. intros n. destruct j; cbn -[of_string]; tauto.
Qed.
