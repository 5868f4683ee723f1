(** C138 and C139: the whole program does what its command line asks for, and no more. *)
From Coq Require Import String List NArith ZArith QArith Bool Lia Arith Permutation.
From Verif Require Import Base ExplainTree IndexText IndexBuild TableFields Lib Otel Pi SqlServer Examiner SuggestCmd CommandLine CommandLineSpec CommandLineProofs
  CommandLineFacts CommandLineProperties Json HandOver Program ProgramSpec ProgramProperties HasuraProgram HasuraProgramSpec DigProgram WholeProgram WholeRun WholeRunSpec.
From Verif Require MysqlAst PgAst PgArray ProgramMyProperties ProgramPgProperties HasuraProgramProperties OnDiskProperties.
Import ListNotations.
Local Open Scope nat_scope.

(** ** Words behind settings *)
Section Words.
  Context (parse_int : gostring -> outcome Z).
  Lemma group_words : forall fs s next st n v, group parse_int fs s next st -> In (n, v) st ->
    exists f, In f fs /\ fl_name f = n /\ fl_short f <> None /\ (fl_kind f = KBool \/ (exists before, s = before ++ v) \/ next = Some v).
  Proof.
    intros fs s next st n v G. induction G as [|r|c f r next st T L K J G IH|c f d u T L F|c f d u T L K J F|c f u L K F]; intros I.
    - destruct I.
    - destruct I.
    - destruct I as [E | I].
      + injection E as <- <-. destruct L as [L E]. exists f. split; [exact L|]. split; [reflexivity|]. split; [congruence|now left].
      + destruct (IH I) as (g & G1 & G2 & G3 & G4). exists g. split; [exact G1|]. split; [exact G2|]. split; [exact G3|].
        destruct G4 as [G4 | [[b ->] | G4]]; [now left|right; left; now exists (c :: b)|now (right; right)].
    - destruct I as [E | []]. injection E as <- <-. destruct L as [L E]. exists f. split; [exact L|]. split; [reflexivity|]. split; [congruence|].
      right. left. now exists [c; 61%N].
    - destruct I as [E | []]. injection E as <- <-. destruct L as [L E]. exists f. split; [exact L|]. split; [reflexivity|]. split; [congruence|].
      right. left. now exists [c].
    - destruct I as [E | []]. injection E as <- <-. destruct L as [L E]. exists f. split; [exact L|]. split; [reflexivity|]. split; [congruence|].
      right. now right.
  Qed.
  Lemma setting_words : forall fs args st ws n v, reads parse_int fs args st ws -> In (n, v) st ->
    exists f, In f fs /\ fl_name f = n /\ (fl_kind f = KBool \/ on_line args v) /\ (fl_short f <> None \/ named_on args n).
  Proof.
    intros fs args st ws n v R.
    assert (forall w args0, on_line args0 v -> on_line (w :: args0) v) as OL.
    { intros w args0 (x & b & I & E). exists x, b. split; [now right|exact E]. }
    assert (forall w args0, named_on args0 n -> named_on (w :: args0) n) as NO.
    { intros w args0 (x & I & E). exists x. split; [now right|exact E]. }
    assert (forall w args0,
      (exists f, In f fs /\ fl_name f = n /\ (fl_kind f = KBool \/ on_line args0 v) /\ (fl_short f <> None \/ named_on args0 n)) ->
      exists f, In f fs /\ fl_name f = n /\ (fl_kind f = KBool \/ on_line (w :: args0) v) /\ (fl_short f <> None \/ named_on (w :: args0) n)) as UP.
    { intros w args0 (f & I & E & [K | K] & [M | M]); exists f; auto 8. }
    induction R as [|x args st ws PX R IH|args|f u args st ws I FI R IH|f args st ws I K R IH|f u args st ws I K FI R IH
      |c r set args st ws NC G R IH|c r u set args st ws NC G R IH]; intros J.
    - destruct J.
    - apply UP, IH, J.
    - destruct J.
    - destruct J as [E | J]; [|apply UP, IH, J]. injection E as <- <-. exists f. split; [exact I|]. split; [reflexivity|]. split.
      + right. exists (lit "--" ++ fl_name f ++ lit "=" ++ u), (lit "--" ++ fl_name f ++ lit "="). split; [now left|]. now rewrite <- !app_assoc.
      + right. eexists. split; [now left|]. right. now exists u.
    - destruct J as [E | J]; [|apply UP, IH, J]. injection E as <- <-. exists f. split; [exact I|]. split; [reflexivity|]. split; [now left|].
      right. eexists. split; [now left|]. now left.
    - destruct J as [E | J]; [|apply UP, UP, IH, J]. injection E as <- <-. exists f. split; [exact I|]. split; [reflexivity|]. split.
      + right. exists u, []. split; [right; now left|reflexivity].
      + right. eexists. split; [now left|]. now left.
    - apply in_app_iff in J as [J | J]; [|apply UP, IH, J]. destruct (group_words _ _ _ _ _ _ G J) as (f & F1 & F2 & F3 & F4).
      exists f. split; [exact F1|]. split; [exact F2|]. split; [|now left]. destruct F4 as [F4 | [[b F4] | F4]]; [now left| |discriminate].
      right. exists (lit "-" ++ c :: r), (lit "-" ++ b). split; [now left|]. rewrite F4. now rewrite app_assoc.
    - apply in_app_iff in J as [J | J]; [|apply UP, UP, IH, J]. destruct (group_words _ _ _ _ _ _ G J) as (f & F1 & F2 & F3 & F4).
      exists f. split; [exact F1|]. split; [exact F2|]. split; [|now left]. destruct F4 as [F4 | [[b F4] | F4]]; [now left| |].
      + right. exists (lit "-" ++ c :: r), (lit "-" ++ b). split; [now left|]. rewrite F4. now rewrite app_assoc.
      + injection F4 as ->. right. exists v, []. split; [right; now left|reflexivity].
  Qed.
  Context (q : gostring -> gostring) (q1 : rune -> gostring).
  Notation start_of := (start_of parse_int q q1 root_cmd).
  Lemma given_words : forall argv j st ws n v, start_of argv = Ok (Run j st ws) -> last_given n st v ->
    exists f, In f (table j) /\ fl_name f = n /\ (fl_kind f = KBool \/ on_line argv v) /\ (fl_short f <> None \/ named_on argv n).
  Proof.
    intros argv j st ws n v R L. destruct (runs_only_complete parse_int q q1 argv j st ws R) as ((args & P & RD) & _).
    assert (forall x, In x args -> In x argv) as SUB.
    { intros x I. eapply Permutation_in; [symmetry; exact P|]. apply in_app_iff. now right. }
    assert (In (n, v) st) as I by (destruct L as (b & a & -> & _); apply in_app_iff; right; now left).
    destruct (setting_words _ _ _ _ _ _ RD I) as (f & F1 & F2 & F3 & F4). exists f. split; [exact F1|]. split; [exact F2|]. split.
    - destruct F3 as [F3 | (x & b & J & E)]; [now left|right]. exists x, b. auto.
    - destruct F4 as [F4 | (x & J & E)]; [now left|right]. exists x. auto.
  Qed.
  Lemma kinds : forall j f, In f (table j) -> (In (fl_name f) [lit "output"; lit "query"] -> fl_kind f = KString) /\
    (fl_name f = lit "with-examine" -> fl_short f = None).
  Proof.
    intros j f I. destruct j; cbn in I; repeat (destruct I as [<- | I]); try destruct I;
      (split; [intros K; first [reflexivity|exfalso; cbn in K; destruct K as [K | [K | []]]; discriminate K]|intros K; first [reflexivity|discriminate K]]).
  Qed.
  Lemma text_on_line : forall argv j st ws n v, start_of argv = Ok (Run j st ws) -> In n [lit "output"; lit "query"] -> last_given n st v -> on_line argv v.
  Proof.
    intros argv j st ws n v R N L. destruct (given_words _ _ _ _ _ _ R L) as (f & F1 & F2 & [K | F3] & _); [|exact F3].
    rewrite <- F2 in N. rewrite (proj1 (kinds j f F1) N) in K. discriminate.
  Qed.
  Lemma examine_named : forall argv j st ws v, start_of argv = Ok (Run j st ws) -> last_given (lit "with-examine") st v -> named_on argv (lit "with-examine").
  Proof.
    intros argv j st ws v R L. destruct (given_words _ _ _ _ _ _ R L) as (f & F1 & F2 & _ & [K | F3]); [|exact F3].
    destruct K. exact (proj2 (kinds j f F1) F2).
  Qed.
  Lemma reads_unique : forall j args st ws st' ws', reads parse_int (table j) args st ws -> reads parse_int (table j) args st' ws' -> st = st' /\ ws = ws'.
  Proof.
    intros j args st ws st' ws' R R'. destruct (flags_table j) as [_ T]. apply (reads_cover _ _ _ T) in R. apply (reads_cover _ _ _ T) in R'.
    pose proof (parse_args_complete parse_int q q1 _ (flags_distinct j) _ _ _ R) as E.
    rewrite (parse_args_complete parse_int q q1 _ (flags_distinct j) _ _ _ R') in E. injection E as -> ->. auto.
  Qed.
End Words.

(** ** Deeds one by one *)
Section Deeds.
  Context (argv : list gostring).
  Definition polite (d : deed) : Prop :=
    (changes d -> named_on argv (lit "with-examine")) /\
    (forall s, d = inl (AExec s) -> on_line argv s \/
       exists n it, In s [mysql_create_sql n it; mysql_drop_sql n it; pg_create_sql n it; pg_drop_sql n it]) /\
    (forall p, In p (written d) -> on_line argv p).
  Definition modest (tr : list deed) : Prop := Forall polite tr /\ length (flat_map written tr) <= 1.
  Lemma modest_nil : modest [].
  Proof. split; [constructor|cbn; lia]. Qed.
  Lemma polite_quiet : forall a, match a with AOpen _ | ASelect _ | AClose => True | _ => False end -> polite (inl a).
  Proof. intros a H. destruct a; try destruct H; (split; [intros []|]); (split; [intros s E; discriminate|intros p []]). Qed.
  Lemma polite_write : forall p b, on_line argv p -> polite (inl (AWrite p b)).
  Proof. intros p b H. split; [intros []|]. split; [intros s E; discriminate|]. intros x [<- | []]. exact H. Qed.
  Lemma none_written : forall {X} (f : X -> deed) l, (forall x, In x l -> written (f x) = []) -> flat_map written (map f l) = [].
  Proof.
    intros X f l H. induction l as [|x l IH]; [reflexivity|]. cbn [map flat_map]. rewrite (H x (or_introl eq_refl)), IH; [reflexivity|].
    intros y I. apply H. now right.
  Qed.
  Lemma conversation_modest : forall create drop explain query schema output runs vars table wrote connection inner r,
    (forall n it, In (create n it) [mysql_create_sql n it; pg_create_sql n it]) -> (forall n it, In (drop n it) [mysql_drop_sql n it; pg_drop_sql n it]) ->
    (runs = true -> named_on argv (lit "with-examine")) -> on_line argv query -> on_line argv output ->
    conversation create drop explain query schema output runs vars table wrote inner r ->
    modest (map inl (AOpen connection :: inner ++ [AClose])).
  Proof.
    intros create drop explain query schema output runs vars table wrote connection inner r HC HD HR HQ HO C.
    cbn [map]. rewrite map_app. cbn [map].
    assert (modest (map inl inner)) as [MP ML].
    { destruct (talk_tail _ _ _ _ _ _ _ _ _ _ _ _ C) as [[_ SEL] | (s1 & s2 & s3 & exam & report & -> & EX & RP)].
      - rewrite Forall_forall in SEL. split.
        + apply Forall_forall. intros d I. apply in_map_iff in I as (a & <- & I). apply polite_quiet. specialize (SEL a I). now destruct a.
        + rewrite none_written; [cbn; lia|]. intros a I. specialize (SEL a I). now destruct a.
      - cbn [map]. rewrite map_app. split.
        + repeat (apply Forall_cons; [now apply polite_quiet|]). apply Forall_app. split.
          * apply Forall_forall. intros d I. apply in_map_iff in I as (a & <- & I). destruct (EX a I) as (RU & v & ts & s & _ & _ & -> & SQ).
            split; [intros _; exact (HR RU)|]. split; [|intros p []]. intros s0 E. injection E as <-.
            destruct SQ as [-> | (n & it & _ & [-> | ->])]; [now left|right|right]; exists n, it.
            -- specialize (HC n it). cbn [In] in *. tauto.
            -- specialize (HD n it). cbn [In] in *. tauto.
          * destruct RP as [-> | (_ & b & ->)]; [constructor|]. apply Forall_cons; [now apply polite_write|constructor].
        + cbn [flat_map written app]. rewrite flat_map_app, none_written.
          * destruct RP as [-> | (_ & b & ->)]; cbn; lia.
          * intros a I. now destruct (EX a I) as (_ & v & ts & s & _ & _ & -> & _). }
    split.
    - apply Forall_cons; [now apply polite_quiet|]. apply Forall_app. split; [exact MP|]. apply Forall_cons; [now apply polite_quiet|constructor].
    - cbn [flat_map written app]. rewrite flat_map_app, app_length. cbn [flat_map written app length]. rewrite Nat.add_0_r. exact ML.
  Qed.
  Definition heard_written (h : heard) : list gostring := match h with HWrite p _ => [p] | _ => [] end.
  Lemma posts_write_nothing : forall path body, heard_written (hear (APost path body)) = [].
  Proof.
    intros path body. cbn [hear]. destruct body as [| | | | |l]; try reflexivity.
    assert (forall make v, (forall x y, heard_written (make x y) = []) -> heard_written (graphql_of make v) = []) as GQ.
    { intros make v M. unfold graphql_of. destruct v as [| | | | |m]; try reflexivity. destruct (HasuraProgramSpec.field _ m); try reflexivity. apply M. }
    destruct (seqb path _); [destruct (HasuraProgramSpec.field _ l); try reflexivity; now apply GQ|].
    destruct (seqb path _); [now apply GQ|]. destruct (seqb path _); [|reflexivity].
    destruct (HasuraProgramSpec.field (lit "type") l); try reflexivity. destruct (HasuraProgramSpec.field (lit "args") l) as [| | | | |m]; try reflexivity.
    destruct (seqb _ _); [|reflexivity]. unfold sql_of.
    destruct (HasuraProgramSpec.field (lit "sql") m); try reflexivity. destruct (HasuraProgramSpec.field (lit "source") m); try reflexivity.
    destruct (HasuraProgramSpec.field (lit "cascade") m); try reflexivity. destruct (HasuraProgramSpec.field (lit "read_only") m); reflexivity.
  Qed.
  Lemma heard_writes : forall tr, flat_map written (map inl tr) = flat_map heard_written (map hear tr).
  Proof.
    induction tr as [|a tr IH]; [reflexivity|]. cbn [map flat_map]. rewrite IH. f_equal. destruct a; try reflexivity. symmetry. apply posts_write_nothing.
  Qed.
  Lemma hasura_modest : forall query v output runs vars table wrote tr r,
    (runs = true -> named_on argv (lit "with-examine")) -> on_line argv output ->
    hasura_talk query v output runs vars table wrote (map hear tr) r -> modest (map inl tr).
  Proof.
    intros query v output runs vars table wrote tr r HR HO C. split.
    - apply Forall_forall. intros d I. apply in_map_iff in I as (a & <- & I).
      pose proof (HasuraProgramProperties.hasura_harmless _ _ _ _ _ _ _ _ _ _ C (in_map hear _ _ I)) as X.
      destruct a as [c|rq|s|path body|p b|]; try (cbn [hear] in X; destruct X).
      + split; [|split; [intros s E; discriminate|intros p []]]. intros CH. cbn [changes] in CH.
        pose proof (posts_write_nothing path body) as E.
        destruct (hear (APost path body)) as [q0 v0|q0 v0|q0 [|]|p b|]; try destruct CH.
        * now apply HR.
        * now apply HR.
        * discriminate E.
        * destruct X.
      + apply polite_write. now subst p.
    - rewrite heard_writes. destruct (HasuraProgramProperties.heard_parts _ _ _ _ _ _ _ _ _ C) as (qs & exam & report & -> & _ & QS & EX & RP).
      cbn [flat_map heard_written app]. rewrite !flat_map_app.
      assert (flat_map heard_written qs = []) as ->.
      { clear - QS. induction QS as [|h qs (s & -> & _) QS IH]; [reflexivity|exact IH]. }
      assert (flat_map heard_written exam = []) as ->.
      { destruct EX as [-> | (_ & v' & ts & _ & _ & EX)]; [reflexivity|]. clear - EX. induction EX as [|h exam T EX IH]; [reflexivity|]. cbn [flat_map]. rewrite IH, app_nil_r.
        destruct T as [-> | (n & it & _ & [-> | ->])]; reflexivity. }
      destruct RP as [-> | (_ & b & e & -> & _)]; cbn; lia.
  Qed.
  Lemma dig_modest : forall {W} (ds : services W) output none p w tr w' r, OnDiskProperties.dloud ds output none p -> on_line argv output ->
    p w = (tr, w', r) -> modest (map inr tr).
  Proof.
    intros W ds output none p w tr w' r D HO E. destruct (D _ _ _ _ E) as [_ L].
    assert (forall l, OnDiskProperties.creates_nothing l -> Forall polite (map inr l) /\ flat_map written (map inr l) = []) as N.
    { intros l H. assert (forall x, In x l -> written (inr x) = []) as WN.
      { intros [a x] I. destruct a; try reflexivity. destruct (H path b x I). }
      split; [|now apply none_written]. apply Forall_forall. intros d I. apply in_map_iff in I as (x & <- & I).
      split; [intros []|]. split; [intros s X; discriminate|]. rewrite (WN x I). intros p0 []. }
    destruct L as [[L _] | (_ & before & b & m & after & -> & N1 & N2 & _)].
    - destruct (N _ L) as [P WN]. split; [exact P|]. rewrite WN. cbn. lia.
    - destruct (N _ N1) as [P1 W1], (N _ N2) as [P2 W2]. rewrite map_app. cbn [map]. split.
      + apply Forall_app. split; [exact P1|]. apply Forall_cons; [|exact P2]. split; [intros []|]. split; [intros s X; discriminate|]. intros p0 [<- | []]. exact HO.
      + rewrite flat_map_app, W1. cbn [flat_map app]. rewrite W2. cbn. lia.
  Qed.
End Deeds.

Section Whole.
  Context {W : Type} (sv : world W) (low fold : rune -> rune) (norm : gostring -> gostring) (so : list gostring -> list gostring)
    (ord : order gostring) (ordf : order ifield) (srt : list index_target_table -> list index_target_table)
    (my_parse : gostring -> outcome (list MysqlAst.node)) (pg_parse : gostring -> outcome (list PgAst.node))
    (parse_int : gostring -> outcome Z) (q : gostring -> gostring) (q1 : rune -> gostring)
    (hv : hworld W) (unmarshal : gostring -> option jv) (kfold : rune -> rune) (float : Q -> option Q) (parse_url : gostring -> outcome unit)
    (ds : services W) (ords : nat -> nat -> list bytes -> list bytes) (srts : list (tree node) -> list (tree node))
    (ordc : list (gostring * Z) -> list (gostring * Z)) (ordv ordt : nat -> list (gostring * Z) -> list (gostring * Z))
    (srtt : list (Z * Z) -> list (Z * Z)) (parse_time : gostring -> outcome Z)
    (vadd : Q -> Q -> Q) (vlt : Q -> Q -> bool) (vzero : Q -> bool) (parse_gtime : gostring -> outcome gtime).
  Notation gr_run := (gr_run sv low fold norm so ord ordf srt my_parse pg_parse parse_int q q1 hv unmarshal kfold float parse_url
    ds ords srts ordc ordv ordt srtt parse_time vadd vlt vzero parse_gtime).
  Notation start_of := (start_of parse_int q q1 root_cmd).

  (** ** C138 *)
  (** Whatever the words of a command line and however the run ends: nothing that may change
      a database leaves the program unless --with-examine stands on the line; what is executed
      is the query of the line or creates or removes an index; at most one file is written,
      and its path stands on the line. *)
  Theorem only_what_is_asked : (forall l, Permutation (so l) l) -> is_order ord -> is_order ordf -> is_sort itt_less srt ->
    forall unix rnds now gnow env argv w tr w' r, gr_run unix rnds now gnow env argv w = (tr, w', r) ->
    (forall d, In d tr -> changes d -> named_on argv (lit "with-examine")) /\
    (forall s, In (inl (AExec s)) tr -> on_line argv s \/
       exists n it, In s [mysql_create_sql n it; mysql_drop_sql n it; pg_create_sql n it; pg_drop_sql n it]) /\
    (forall p, In p (flat_map written tr) -> on_line argv p) /\ length (flat_map written tr) <= 1.
  Proof.
    intros Hso Ho Hof Hs unix rnds now gnow env argv w tr w' r G.
    assert (modest argv tr) as [MP ML].
    { unfold WholeRun.gr_run, WholeProgram.gr in G. destruct (start_of argv) as [[|j st ws]|m|] eqn:ST; try (injection G as <- _ _; apply modest_nil).
      assert (In j [MysqlCmd; PostgresCmd; HasuraPostgresCmd] ->
        let o := suggest_options_of st in
        on_line argv (so_query o) /\ on_line argv (so_output o) /\ (so_runs o = true -> named_on argv (lit "with-examine"))) as SO.
      { intros J. destruct (suggest_options_read parse_int q q1 argv j st ws ST J) as (O1 & O2 & _ & O4 & _).
        split; [|split].
        - eapply text_on_line; [exact ST|right; now left|exact O1].
        - eapply text_on_line; [exact ST|now left|exact O2].
        - intros RU. destruct (proj1 O4 RU) as (v & L & _). eapply examine_named; [exact ST|exact L]. }
      destruct j; try (injection G as <- _ _; apply modest_nil).
      - destruct SO as (OQ & OO & RU); [now left|]. unfold lifted in G.
        destruct (mysql_main _ _ _ _ _ _ _ _ _ _ _ _ _ _ _ _) as [[tr1 w1] r1] eqn:E. injection G as <- _ _.
        destruct (ProgramMyProperties.mysql_conversation sv low fold so ord ordf srt unix rnds _ _ _ _ my_parse Hso Ho Hof Hs _ _ _ _ _ E)
          as [(-> & _) | (c & cn & _ & _ & [(-> & _) | (inner & -> & C)])]; [apply modest_nil| |].
        + split; [apply Forall_cons; [now apply polite_quiet|constructor]|cbn; lia].
        + eapply conversation_modest; [| |exact RU|exact OQ|exact OO|exact C]; intros n it; now left.
      - destruct SO as (OQ & OO & RU); [right; now left|]. unfold lifted in G.
        destruct (pg_main _ _ _ _ _ _ _ _ _ _ _ _ _ _ _ _) as [[tr1 w1] r1] eqn:E. injection G as <- _ _.
        destruct (ProgramPgProperties.pg_conversation sv norm fold so ord ordf srt unix rnds _ _ _ _ pg_parse Hso Ho Hof Hs _ _ _ _ _ E)
          as [(-> & _) | (c & cn & _ & _ & [(-> & _) | (inner & -> & C)])]; [apply modest_nil| |].
        + split; [apply Forall_cons; [now apply polite_quiet|constructor]|cbn; lia].
        + eapply conversation_modest; [| |exact RU|exact OQ|exact OO|exact C]; intros n it; right; now left.
      - destruct SO as (OQ & OO & RU); [right; right; now left|]. unfold lifted in G.
        destruct (hasura_main _ _ _ _ _ _ _ _ _ _ _ _ _ _ _ _ _ _ _ _ _ _) as [[tr1 w1] r1] eqn:E. injection G as <- _ _.
        destruct (HasuraProgramProperties.hasura_conversation hv unmarshal kfold norm fold so ord ordf srt unix rnds PgArray.array_in pg_parse
          Hso Ho Hof Hs _ _ _ _ _ float parse_url _ _ _ _ _ E) as [(-> & _) | (v & _ & _ & _ & C)]; [apply modest_nil|].
        eapply hasura_modest; [exact RU|exact OO|exact C].
      - destruct (dig_options_read parse_int q q1 argv st ws) as [_ D]. destruct (D ST) as [_ OO]. unfold lifted in G.
        destruct (pi_main _ _ _ _ _ _ _ _ _) as [[tr1 w1] r1] eqn:E. injection G as <- _ _.
        eapply dig_modest; [apply OnDiskProperties.pi_loud| |exact E]. eapply text_on_line; [exact ST|now left|exact OO].
      - destruct (dig_options_read parse_int q q1 argv st ws) as [D _]. destruct (D ST) as (_ & OO & _). unfold lifted in G.
        destruct (jaeger_main _ _ _ _ _ _ _ _ _ _ _ _) as [[tr1 w1] r1] eqn:E. injection G as <- _ _.
        eapply dig_modest; [apply OnDiskProperties.jaeger_loud| |exact E]. eapply text_on_line; [exact ST|now left|exact OO]. }
    rewrite Forall_forall in MP. split; [|split; [|split]].
    - intros d I. exact (proj1 (MP d I)).
    - intros s I. exact (proj1 (proj2 (MP _ I)) s eq_refl).
    - intros p I. apply in_flat_map in I as (d & I & J). exact (proj2 (proj2 (MP d I)) p J).
    - exact ML.
  Qed.

  (** ** C139 *)
  (** A command line that does not read by the grammar of options, or that lacks something
      required, makes the program fail with nothing done; one that asks for help makes it
      succeed with nothing done. *)
  Theorem refused_line : forall unix rnds now gnow env j args w tr w' r, gr_run unix rnds now gnow env (path j ++ args) w = (tr, w', r) ->
    ((forall st ws, ~ reads parse_int (table j) args st ws) -> tr = [] /\ w' = w /\ failed r) /\
    (forall st ws, reads parse_int (table j) args st ws ->
       (asks_help st -> tr = [] /\ w' = w /\ r = Ok tt) /\
       (forall n, ~ asks_help st -> In n (required j) -> ~ In n (map fst st) -> tr = [] /\ w' = w /\ failed r)).
  Proof.
    intros unix rnds now gnow env j args w tr w' r G. unfold WholeRun.gr_run, WholeProgram.gr in G.
    pose proof (command_line_exact parse_int q q1 j args) as RUN. pose proof (help_exact parse_int q q1 j args) as HELP.
    destruct (start_of (path j ++ args)) as [[|j' st' ws']|m|] eqn:ST.
    - injection G as <- <- <-. destruct (proj1 HELP eq_refl) as (st & ws & R & H). split; [intros N; destruct (N st ws R)|].
      intros st0 ws0 R0. destruct (reads_unique parse_int q q1 _ _ _ _ _ _ R R0) as [<- _]. split; [auto|]. intros n N. contradiction.
    - destruct (proj1 (RUN j' st' ws') eq_refl) as (-> & R & NH & REQ). split; [intros N; destruct (N st' ws' R)|].
      intros st0 ws0 R0. destruct (reads_unique parse_int q q1 _ _ _ _ _ _ R R0) as [<- _]. split; [contradiction|]. intros n _ I N. destruct (N (REQ n I)).
    - injection G as <- <- <-. assert (failed (Err m : outcome unit)) as F by (intros x; discriminate). split; [auto|]. intros st ws R. split; [|auto]. intros H.
      exfalso. assert (Err m = Ok ShowHelp) as X by (apply HELP; eauto). discriminate X.
    - injection G as <- <- <-. assert (failed (Panic : outcome unit)) as F by (intros x; discriminate). split; [auto|]. intros st ws R. split; [|auto]. intros H.
      exfalso. assert (Panic = Ok ShowHelp) as X by (apply HELP; eauto). discriminate X.
  Qed.
End Whole.
Print Assumptions only_what_is_asked.
Print Assumptions refused_line.
