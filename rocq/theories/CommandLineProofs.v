(** Proofs about the command line: the parser of options accepts exactly the grammar. *)
From Coq Require Import String List NArith ZArith Bool Lia Arith.
From Verif Require Import Base CommandLine CommandLineSpec.
Import ListNotations.

Section Exact.
  Context (parse_int : gostring -> outcome Z) (q : gostring -> gostring) (q1 : rune -> gostring).
  Notation set_value := (set_value parse_int q).
  Notation parse_short := (parse_short parse_int q q1).
  Notation parse_long := (parse_long parse_int q).
  Notation parse_args := (parse_args parse_int q q1).
  Notation fits := (fits parse_int).
  Notation group := (group parse_int).
  Notation reads := (reads parse_int).

  Lemma parse_bool_some : forall v, (exists b, parse_bool v = Some b) <->
    In v [lit "1"; lit "t"; lit "T"; lit "true"; lit "TRUE"; lit "True"; lit "0"; lit "f"; lit "F"; lit "false"; lit "FALSE"; lit "False"].
  Proof.
    intros v. unfold parse_bool.
    change [lit "1"; lit "t"; lit "T"; lit "true"; lit "TRUE"; lit "True"; lit "0"; lit "f"; lit "F"; lit "false"; lit "FALSE"; lit "False"]
      with ([lit "1"; lit "t"; lit "T"; lit "true"; lit "TRUE"; lit "True"] ++ [lit "0"; lit "f"; lit "F"; lit "false"; lit "FALSE"; lit "False"]).
    generalize [lit "1"; lit "t"; lit "T"; lit "true"; lit "TRUE"; lit "True"] as yes.
    generalize [lit "0"; lit "f"; lit "F"; lit "false"; lit "FALSE"; lit "False"] as no. intros no yes.
    assert (forall l, existsb (seqb v) l = true <-> In v l) as EX.
    { intros l. rewrite existsb_exists. split.
      - intros (x & Hx & E). apply seqb_eq in E as ->. exact Hx.
      - intros H. exists v. split; [exact H|apply seqb_refl]. }
    rewrite in_app_iff, <- !EX. destruct (existsb (seqb v) yes), (existsb (seqb v) no); split; intros H; eauto.
    - destruct H as [b H]. discriminate.
    - destruct H; discriminate.
  Qed.

  Lemma set_value_ok : forall f v kv, set_value f v = Ok kv <-> kv = (fl_name f, v) /\ fits f v.
  Proof.
    intros f v kv. unfold CommandLine.set_value, CommandLineSpec.fits. destruct (fl_kind f).
    - rewrite <- parse_bool_some. destruct (parse_bool v) as [b|]; split.
      + intros [= <-]. eauto.
      + intros [-> _]. reflexivity.
      + discriminate.
      + intros [_ [b H]]. discriminate.
    - split; [intros [= <-]; auto|intros [-> _]; reflexivity].
    - split; [intros [= <-]; auto|intros [-> _]; reflexivity].
    - destruct (parse_int v) as [z| |]; split; try discriminate.
      + intros [= <-]. eauto.
      + intros [-> _]. reflexivity.
      + intros [_ [z H]]. discriminate.
      + intros [_ [z H]]. discriminate.
  Qed.

  Lemma needs_value_kind : forall f, needs_value f = false <-> fl_kind f = KBool.
  Proof. intros f. unfold needs_value. destruct (fl_kind f); split; congruence. Qed.

  Lemma set_true : forall f, fl_kind f = KBool -> set_value f (lit "true") = Ok (fl_name f, lit "true").
  Proof.
    intros f K. apply set_value_ok. split; [reflexivity|]. unfold CommandLineSpec.fits. rewrite K. cbn [In]. auto 6.
  Qed.

  Lemma starts_with_spec : forall p s, starts_with p s = true <-> exists r, s = p ++ r.
  Proof.
    induction p as [|x p IH]; intros s; cbn [starts_with app].
    - split; eauto.
    - destruct s as [|y s]; [split; [discriminate|intros [r H]; discriminate]|].
      rewrite andb_true_iff, N.eqb_eq, IH. split.
      + intros [-> [r ->]]. eauto.
      + intros [r [= -> ->]]. eauto.
  Qed.

  Section Flags.
    Context (fs : list flag) (DIST : distinct fs).

    Lemma by_short_spec : forall c f, by_short fs c = Some f <-> letter fs c f.
    Proof.
      intros c f. unfold by_short, letter. split.
      - intros H. apply find_some in H as [I E]. split; [exact I|]. destruct (fl_short f) as [d|]; [|discriminate].
        apply N.eqb_eq in E. now subst.
      - intros [I E]. destruct (List.find _ fs) as [g|] eqn:F.
        + apply find_some in F as [IG EG]. f_equal. destruct (fl_short g) as [d|] eqn:EG2; [|discriminate].
          apply N.eqb_eq in EG. subst d. destruct DIST as (_ & H & _). eauto.
        + pose proof (find_none _ _ F f I) as N. cbn beta in N. rewrite E, N.eqb_refl in N. discriminate.
    Qed.

    Lemma by_name_spec : forall n f, by_name fs n = Some f <-> In f fs /\ fl_name f = n.
    Proof.
      destruct DIST as (ND & _). clear DIST. unfold by_name. induction fs as [|g l IH]; intros n f; cbn [List.find].
      - split; [discriminate|intros [[] _]].
      - inversion ND as [|? ? NI ND']; subst. destruct (seqb_spec (fl_name g) n) as [E|E].
        + split.
          * intros [= ->]. split; [now left|exact E].
          * intros [[-> | I] E']; [reflexivity|]. destruct NI. rewrite E, <- E'. now apply in_map.
        + rewrite (IH ND'). split.
          * intros [I ?]. split; [now right|assumption].
          * intros [[-> | I] E']; [congruence|auto].
    Qed.

    Lemma joined_spec : forall r, match r with e :: _ :: _ => N.eqb e 61 | _ => false end = true <-> joined r.
    Proof.
      unfold joined. intros [|e [|d v]]; split; try discriminate.
      - intros (d & v & H). discriminate.
      - intros (d & v & H). discriminate.
      - intros H. apply N.eqb_eq in H as ->. eauto.
      - intros (d' & v' & [= -> _ _]). reflexivity.
    Qed.

    Definition consumed (b : bool) (next : option gostring) (P : option gostring -> Prop) : Prop :=
      if b then exists v, next = Some v /\ P (Some v) else P None.

    Lemma parse_short_sound : forall s next st b, parse_short fs s next = Ok (st, b) ->
      consumed b next (fun n => group fs s n st).
    Proof.
      induction s as [|c r IH]; intros next st b; cbn [CommandLine.parse_short].
      - intros [= <- <-]. constructor.
      - destruct (starts_with (lit "test.") (c :: r)) eqn:T.
        + apply starts_with_spec in T as [t ->]. intros [= <- <-]. constructor.
        + assert (~ for_go_test (c :: r)) as NT.
          { intros H. apply starts_with_spec in H. congruence. }
          clear T. destruct (by_short fs c) as [f|] eqn:F; [|discriminate]. apply by_short_spec in F.
          pose proof (joined_spec r) as J.
          destruct (match r with e :: _ :: _ => N.eqb e 61 | _ => false end) eqn:JE.
          * destruct (proj1 J eq_refl) as (d & v & ->). cbn [tl].
            destruct (set_value f (d :: v)) as [kv| |] eqn:SV; try discriminate. intros [= <- <-].
            apply set_value_ok in SV as [-> FI]. now apply g_equals.
          * assert (~ joined r) as NJ by (intros H; apply J in H; discriminate). clear J JE.
            destruct (needs_value f) eqn:NV.
            -- assert (fl_kind f <> KBool) as NB by (intros H; apply needs_value_kind in H; congruence).
               destruct r as [|d v].
               ++ destruct next as [v|]; [|discriminate].
                  destruct (set_value f v) as [kv| |] eqn:SV; try discriminate. intros [= <- <-].
                  apply set_value_ok in SV as [-> FI]. exists v. split; [reflexivity|]. now apply g_next.
               ++ destruct (set_value f (d :: v)) as [kv| |] eqn:SV; try discriminate. intros [= <- <-].
                  apply set_value_ok in SV as [-> FI]. now apply g_attached.
            -- apply needs_value_kind in NV.
               destruct (set_value f (lit "true")) as [kv| |] eqn:SV; try discriminate.
               apply set_value_ok in SV as [-> FI]. cbn [obind].
               destruct (parse_short fs r next) as [[st' b']| |] eqn:PS; try discriminate.
               cbn [obind fst snd]. intros [= <- <-]. specialize (IH _ _ _ PS).
               destruct b'; cbn [consumed] in *.
               ++ destruct IH as (v & E & G). exists v. split; [exact E|]. now apply g_switch.
               ++ now apply g_switch.
    Qed.

    Lemma parse_short_complete : forall s n st, group fs s n st -> forall next,
      (match n with Some v => next = Some v | None => True end) ->
      parse_short fs s next = Ok (st, match n with Some _ => true | None => false end).
    Proof.
      induction 1 as [|r|c f r n st NT L K NJ G IH|c f d v NT L FI|c f d v NT L K NJ FI|c f v L K FI]; intros next HN.
      - reflexivity.
      - cbn -[starts_with of_string]. change (of_string "test." ++ r) with (116%N :: (lit "est." ++ r)).
        cbn [CommandLine.parse_short]. replace (starts_with (lit "test.") _) with true; [reflexivity|].
        symmetry. apply starts_with_spec. exists r. reflexivity.
      - cbn [CommandLine.parse_short].
        destruct (starts_with (lit "test.") (c :: r)) eqn:T; [destruct NT; now apply starts_with_spec|].
        apply by_short_spec in L as ->.
        pose proof (joined_spec r) as J. destruct (match r with e :: _ :: _ => N.eqb e 61 | _ => false end).
        { destruct NJ. now apply J. }
        rewrite (proj2 (needs_value_kind f) K). rewrite (set_true f K).
        cbn [obind]. rewrite (IH next HN). reflexivity.
      - cbn [CommandLine.parse_short].
        destruct (starts_with (lit "test.") (c :: 61%N :: d :: v)) eqn:T; [destruct NT; now apply starts_with_spec|].
        apply by_short_spec in L as ->. change (N.eqb 61 61) with true. cbn [tl].
        rewrite (proj2 (set_value_ok f (d :: v) _) (conj eq_refl FI)). reflexivity.
      - cbn [CommandLine.parse_short].
        destruct (starts_with (lit "test.") (c :: d :: v)) eqn:T; [destruct NT; now apply starts_with_spec|].
        apply by_short_spec in L as ->.
        pose proof (joined_spec (d :: v)) as J. destruct (match d :: v with e :: _ :: _ => N.eqb e 61 | _ => false end).
        { destruct NJ. now apply J. }
        destruct (needs_value f) eqn:NV; [|apply needs_value_kind in NV; congruence].
        rewrite (proj2 (set_value_ok f (d :: v) _) (conj eq_refl FI)). reflexivity.
      - cbn [CommandLine.parse_short]. subst next. replace (starts_with (lit "test.") [c]) with false.
        + apply by_short_spec in L as ->. destruct (needs_value f) eqn:NV; [|apply needs_value_kind in NV; congruence].
          rewrite (proj2 (set_value_ok f v _) (conj eq_refl FI)). reflexivity.
        + cbn. now destruct c as [|[]]; rewrite ?andb_false_r.
    Qed.

    Lemma cut_none : forall s, ~ In 61%N s -> cut_at_equals s = (s, None).
    Proof.
      induction s as [|c r IH]; intros H; [reflexivity|]. cbn [cut_at_equals].
      destruct (N.eqb_spec c 61) as [->|E]; [destruct H; now left|].
      rewrite IH; [reflexivity|]. intros X. apply H. now right.
    Qed.
    Lemma cut_some : forall s v, ~ In 61%N s -> cut_at_equals (s ++ 61%N :: v) = (s, Some v).
    Proof.
      induction s as [|c r IH]; intros v H; [reflexivity|]. cbn [cut_at_equals app].
      destruct (N.eqb_spec c 61) as [->|E]; [destruct H; now left|].
      rewrite IH; [reflexivity|]. intros X. apply H. now right.
    Qed.
    Lemma cut_spec : forall s a b, cut_at_equals s = (a, b) -> s = match b with Some v => a ++ 61%N :: v | None => a end.
    Proof.
      induction s as [|c r IH]; intros a b; cbn [cut_at_equals].
      - intros [= <- <-]. reflexivity.
      - destruct (N.eqb_spec c 61) as [->|E].
        + intros [= <- <-]. reflexivity.
        + destruct (cut_at_equals r) as [a' b'] eqn:C. intros [= <- <-]. rewrite (IH _ _ eq_refl). destruct b'; reflexivity.
    Qed.

    (** what one long option means *)
    Inductive long : gostring -> option gostring -> settings -> Prop :=
    | lg_equals : forall f v, In f fs -> fits f v -> long (fl_name f ++ 61%N :: v) None [(fl_name f, v)]
    | lg_switch : forall f, In f fs -> fl_kind f = KBool -> long (fl_name f) None [(fl_name f, lit "true")]
    | lg_value : forall f v, In f fs -> fl_kind f <> KBool -> fits f v -> long (fl_name f) (Some v) [(fl_name f, v)].

    Lemma parse_long_sound : forall s next st b, parse_long fs s next = Ok (st, b) -> consumed b next (fun n => long s n st).
    Proof.
      intros s next st b. unfold CommandLine.parse_long. destruct s as [|c r]; [discriminate|].
      destruct (N.eqb c 45 || N.eqb c 61); [discriminate|].
      destruct (cut_at_equals (c :: r)) as [name value] eqn:C. apply cut_spec in C. rewrite C. clear C c r.
      destruct (by_name fs name) as [f|] eqn:B; [|discriminate]. apply by_name_spec in B as [I <-].
      destruct value as [v|].
      - destruct (set_value f v) as [kv| |] eqn:SV; try discriminate. intros [= <- <-].
        apply set_value_ok in SV as [-> FI]. now apply lg_equals.
      - destruct (needs_value f) eqn:NV.
        + assert (fl_kind f <> KBool) as NB by (intros H; apply needs_value_kind in H; congruence).
          destruct next as [v|]; [|discriminate].
          destruct (set_value f v) as [kv| |] eqn:SV; try discriminate. intros [= <- <-].
          apply set_value_ok in SV as [-> FI]. exists v. split; [reflexivity|]. now apply lg_value.
        + apply needs_value_kind in NV.
          destruct (set_value f (lit "true")) as [kv| |] eqn:SV; try discriminate.
          apply set_value_ok in SV as [-> FI]. intros [= <- <-]. now apply lg_switch.
    Qed.
    Lemma parse_long_eq : forall s next, (exists c r, s = c :: r /\ c <> 45%N /\ c <> 61%N) ->
      parse_long fs s next =
        let '(name, value) := cut_at_equals s in
        match by_name fs name with
        | None => Err (lit "unknown flag: --" ++ name)
        | Some f =>
            match value with
            | Some v => do kv <- set_value f v; Ok ([kv], false)
            | None =>
                if needs_value f then
                  match next with
                  | Some v => do kv <- set_value f v; Ok ([kv], true)
                  | None => Err (lit "flag needs an argument: --" ++ s)
                  end
                else do kv <- set_value f (lit "true"); Ok ([kv], false)
            end
        end.
    Proof.
      intros s next (c & r & -> & N1 & N2). unfold CommandLine.parse_long.
      now rewrite (proj2 (N.eqb_neq c 45) N1), (proj2 (N.eqb_neq c 61) N2).
    Qed.
    Lemma parse_long_complete : forall s n st, long s n st -> forall next,
      (match n with Some v => next = Some v | None => True end) ->
      parse_long fs s next = Ok (st, match n with Some _ => true | None => false end).
    Proof.
      destruct DIST as (_ & _ & NM).
      intros s n st L next HN. destruct L as [f v I FI|f I K|f v I K FI]; destruct (NM f I) as (c & r & E & NC & NE);
        pose proof (proj2 (by_name_spec (fl_name f) f) (conj I eq_refl)) as B;
        (assert (c <> 61%N) as NC2 by (intros ->; apply NE; rewrite E; now left)).
      - rewrite parse_long_eq by (rewrite E; cbn [app]; eauto).
        rewrite cut_some by assumption. rewrite B.
        rewrite (proj2 (set_value_ok f v _) (conj eq_refl FI)). reflexivity.
      - rewrite parse_long_eq by eauto.
        rewrite cut_none by assumption. rewrite B.
        rewrite (proj2 (needs_value_kind f) K). rewrite (set_true f K). reflexivity.
      - rewrite parse_long_eq by eauto.
        rewrite cut_none by assumption. rewrite B.
        destruct (needs_value f) eqn:NV; [|apply needs_value_kind in NV; congruence]. subst next.
        rewrite (proj2 (set_value_ok f v _) (conj eq_refl FI)). reflexivity.
    Qed.

    Lemma look_at_spec : forall s,
      match look_at s with
      | Plain => plain s
      | Dashes => s = lit "--"
      | Long n => s = lit "--" ++ n /\ n <> []
      | Short l => exists c r, l = c :: r /\ c <> 45%N /\ s = lit "-" ++ l
      end.
    Proof.
      intros [|c [|d r]]; cbn [look_at].
      - now left.
      - right. destruct (N.eqb_spec c 45) as [->|E]; [now left|right; eauto].
      - destruct (N.eqb_spec c 45) as [->|E].
        + destruct (N.eqb_spec d 45) as [->|E2].
          * destruct r; [reflexivity|split; [reflexivity|discriminate]].
          * exists d, r. repeat apply conj; [reflexivity|exact E2|reflexivity].
        + right. right. eauto.
    Qed.
    Lemma look_plain : forall s, plain s -> look_at s = Plain.
    Proof.
      intros s [-> | [-> | (c & r & -> & N)]]; [reflexivity|reflexivity|].
      destruct r; [reflexivity|]. cbn [look_at]. now rewrite (proj2 (N.eqb_neq c 45) N).
    Qed.
    Lemma look_short : forall c r, c <> 45%N -> look_at (lit "-" ++ c :: r) = Short (c :: r).
    Proof. intros c r N. cbn. now rewrite (proj2 (N.eqb_neq c 45) N). Qed.
    Lemma look_long : forall n, n <> [] -> look_at (lit "--" ++ n) = Long n.
    Proof. intros [|c r] N; [congruence|reflexivity]. Qed.

    Lemma parse_args_sound : forall k args, length args <= k -> forall st ws, parse_args fs args = Ok (st, ws) -> reads fs args st ws.
    Proof.
      induction k as [|k IH]; intros [|s args]; cbn [length]; intros LE st ws; try lia.
      - intros [= <- <-]. constructor.
      - intros [= <- <-]. constructor.
      - cbn [CommandLine.parse_args]. pose proof (look_at_spec s) as LS. destruct (look_at s) as [| |name|letters].
        + destruct (parse_args fs args) as [[st' ws']| |] eqn:P; try discriminate. cbn [obind fst snd]. intros [= <- <-].
          apply r_plain; [exact LS|]. apply IH; [lia|exact P].
        + subst s. intros [= <- <-]. apply r_dashes.
        + destruct LS as [-> NN].
          destruct (parse_long fs name (hd_error args)) as [[set b]| |] eqn:P; try discriminate. cbn [obind fst snd].
          apply parse_long_sound in P. intros H. destruct b; cbn [consumed] in P.
          * destruct P as (v & E & L). destruct args as [|v' args]; [discriminate|]. injection E as ->.
            destruct (parse_args fs args) as [[st' ws']| |] eqn:PA; try discriminate. cbn [obind fst snd] in H. injection H as <- <-.
            inversion L; subst. apply r_value; try assumption. apply IH; [cbn [length] in LE; lia|exact PA].
          * replace (match args with | [] => parse_args fs args | _ :: _ => parse_args fs args end) with (parse_args fs args) in H
              by (destruct args; reflexivity).
            destruct (parse_args fs args) as [[st' ws']| |] eqn:PA; try discriminate. cbn [obind fst snd] in H. injection H as <- <-.
            apply IH in PA; [|lia]. inversion P as [f v I FI|f I K|]; subst.
            -- apply r_equals; assumption.
            -- apply r_switch; assumption.
        + destruct LS as (c & r & -> & NC & ->).
          destruct (parse_short fs (c :: r) (hd_error args)) as [[set b]| |] eqn:P; try discriminate. cbn [obind fst snd].
          apply parse_short_sound in P. intros H. destruct b; cbn [consumed] in P.
          * destruct P as (v & E & L). destruct args as [|v' args]; [discriminate|]. injection E as ->.
            destruct (parse_args fs args) as [[st' ws']| |] eqn:PA; try discriminate. cbn [obind fst snd] in H. injection H as <- <-.
            apply r_group_next; try assumption. apply IH; [cbn [length] in LE; lia|exact PA].
          * replace (match args with | [] => parse_args fs args | _ :: _ => parse_args fs args end) with (parse_args fs args) in H
              by (destruct args; reflexivity).
            destruct (parse_args fs args) as [[st' ws']| |] eqn:PA; try discriminate. cbn [obind fst snd] in H. injection H as <- <-.
            apply IH in PA; [|lia]. apply r_group; assumption.
    Qed.

    Lemma parse_args_complete : forall args st ws, reads fs args st ws -> parse_args fs args = Ok (st, ws).
    Proof.
      assert (forall f, In f fs -> fl_name f <> []) as NE.
      { intros f I. destruct DIST as (_ & _ & NM). destruct (NM f I) as (c & r & -> & _). discriminate. }
      induction 1 as [|w args st ws P R IH|args|f v args st ws I FI R IH|f args st ws I K R IH|f v args st ws I K FI R IH
                      |c r set args st ws NC G R IH|c r v set args st ws NC G R IH]; cbn [CommandLine.parse_args].
      - reflexivity.
      - rewrite (look_plain w P), IH. reflexivity.
      - reflexivity.
      - rewrite look_long by (destruct (fl_name f); discriminate).
        change (fl_name f ++ lit "=" ++ v) with (fl_name f ++ 61%N :: v).
        rewrite (parse_long_complete _ _ _ (lg_equals f v I FI)) by exact Logic.I. cbn [obind fst snd].
        replace (match args with | [] => parse_args fs args | _ :: _ => parse_args fs args end) with (parse_args fs args) by (destruct args; reflexivity).
        rewrite IH. reflexivity.
      - rewrite look_long by auto.
        rewrite (parse_long_complete _ _ _ (lg_switch f I K)) by exact Logic.I. cbn [obind fst snd].
        replace (match args with | [] => parse_args fs args | _ :: _ => parse_args fs args end) with (parse_args fs args) by (destruct args; reflexivity).
        rewrite IH. reflexivity.
      - rewrite look_long by auto.
        rewrite (parse_long_complete _ _ _ (lg_value f v I K FI)) by reflexivity. cbn [obind fst snd]. rewrite IH. reflexivity.
      - rewrite look_short by assumption. rewrite (parse_short_complete _ _ _ G) by exact Logic.I. cbn [obind fst snd].
        replace (match args with | [] => parse_args fs args | _ :: _ => parse_args fs args end) with (parse_args fs args) by (destruct args; reflexivity).
        rewrite IH. reflexivity.
      - rewrite look_short by assumption. rewrite (parse_short_complete _ _ _ G) by reflexivity. cbn [obind fst snd]. rewrite IH. reflexivity.
    Qed.
  End Flags.
End Exact.
