(** C132: a command killed at any moment. *)
From Coq Require Import String List NArith ZArith QArith Bool Lia Arith Permutation Sorted.
From Verif Require Import Base Dec IndexText IndexBuild TableFields Existing ExplainTree PlanView SqlServer MetaSql Examiner SuggestCmd Json HandOver CommandText Program Paths Diary DiarySpec DiaryProofs DiaryProperties KilledSpec.
From Verif Require HasuraProgram Hasura ProgramMyProperties DiaryCases.
Import ListNotations.
Local Open Scope nat_scope.

(** ** Steps *)
Lemma left_cons : forall s ss n it, left_by (s :: ss) n it -> (s = Make n it /\ ~ In (Unmake n it) ss) \/ left_by ss n it.
Proof.
  intros s ss n it (s1 & s2 & E & H). destruct s1 as [|x s1]; injection E as -> E; [left; now rewrite E|]. right. now exists s1, s2.
Qed.
Definition open_at (ss1 ss2 : list step) (n : gostring) (it : index_target) : Prop :=
  (exists s1, ss1 = s1 ++ [Make n it] /\ match ss2 with [] => True | s :: _ => s = Ask end) \/
  (exists s1, ss1 = s1 ++ [Make n it; Ask] /\ match ss2 with [] => False | s :: _ => s = Unmake n it end).
Lemma open_cons : forall s a b n it, open_at a b n it -> open_at (s ++ a) b n it.
Proof.
  intros s a b n it [(s1 & -> & H)|(s1 & -> & H)]; [left|right]; exists (s ++ s1); split; try exact H; now rewrite <- app_assoc.
Qed.
Lemma trials_open : forall ss, trials ss -> forall ss1 ss2 n it, ss = ss1 ++ ss2 -> left_by ss1 n it -> open_at ss1 ss2 n it.
Proof.
  induction 1 as [|m jt|m jt ss H IH]; intros ss1 ss2 n it E L.
  - symmetry in E. apply app_eq_nil in E as [-> ->]. destruct L as (s1 & s2 & L & _). now destruct s1.
  - destruct ss1 as [|x ss1]; [destruct L as (s1 & s2 & L & _); now destruct s1|]. injection E as <- E. symmetry in E. apply app_eq_nil in E as [-> ->].
    apply left_cons in L as [[L _]|(s1 & s2 & L & _)]; [|now destruct s1]. left. exists []. rewrite L. auto.
  - destruct ss1 as [|x ss1]; [destruct L as (s1 & s2 & L & _); now destruct s1|]. injection E as <- E.
    apply left_cons in L as [[L K]|L].
    + rewrite L in *. injection L as -> ->. destruct ss1 as [|x ss1]; [cbn in E; subst ss2; left; now exists []|]. injection E as <- E.
      destruct ss1 as [|x ss1]; [cbn in E; subst ss2; right; now exists []|]. injection E as <- E. elim K. right. now left.
    + destruct ss1 as [|x ss1]; [destruct L as (s1 & s2 & L & _); now destruct s1|]. injection E as <- E. apply left_cons in L as [[L _]|L]; [discriminate|].
      destruct ss1 as [|x ss1]; [destruct L as (s1 & s2 & L & _); now destruct s1|]. injection E as <- E. apply left_cons in L as [[L _]|L]; [discriminate|].
      apply (open_cons [Make m jt; Ask; Unmake m jt]). now apply IH.
Qed.
Lemma turn_open : forall ss ss1 ss2 n it, in_turn ss -> ss = ss1 ++ ss2 -> left_by ss1 n it -> open_at ss1 ss2 n it.
Proof.
  intros ss ss1 ss2 n it [->|(ts & -> & T)] E L.
  - symmetry in E. apply app_eq_nil in E as [-> ->]. destruct L as (s1 & s2 & L & _). now destruct s1.
  - destruct ss1 as [|x ss1]; [destruct L as (s1 & s2 & L & _); now destruct s1|]. injection E as <- E. apply left_cons in L as [[L _]|L]; [discriminate|].
    apply (open_cons [Ask]). now apply (trials_open ts).
Qed.
Lemma open_one : forall ss1 ss2 n it n' it', open_at ss1 ss2 n it -> open_at ss1 ss2 n' it' -> n' = n /\ it' = it.
Proof.
  assert (T : forall (a b : list step) x y, a ++ [Make x y; Ask] = (a ++ [Make x y]) ++ [Ask]) by (intros; now rewrite <- app_assoc).
  intros ss1 ss2 n it n' it' [(s1 & -> & H)|(s1 & -> & H)] [(s2 & E & H')|(s2 & E & H')].
  - apply app_inj_tail in E as [_ E]. injection E as -> ->. auto.
  - rewrite (T s2 s2) in E. apply app_inj_tail in E as [_ E]. discriminate.
  - rewrite (T s1 s1) in E. apply app_inj_tail in E as [_ E]. discriminate.
  - rewrite (T s1 s1), (T s2 s2) in E. apply app_inj_tail in E as [E _]. apply app_inj_tail in E as [_ E]. injection E as -> ->. auto.
Qed.
(** ** Lines *)
Definition unnamed (t : gostring) : Prop := forall m, ~ names_index m t.
Lemma unnamed_head : forall c t, c <> 67%N -> c <> 68%N -> unnamed (c :: t).
Proof. intros c t H1 H2 m [E|E]; injection E as E _; contradiction. Qed.
Lemma named_app : forall n a b c, last_named n b -> Forall unnamed c -> last_named n (a ++ b ++ c).
Proof.
  intros n a b c (l1 & t & l2 & -> & H & K) F. exists (a ++ l1), t, (l2 ++ c). split; [now rewrite <- !app_assoc|]. split; [exact H|].
  intros t' m HI. apply in_app_or in HI as [HI|HI]; [now apply K|]. rewrite Forall_forall in F. now apply F.
Qed.
Lemma named_one : forall n t c, names_index n t -> Forall unnamed c -> last_named n (t :: c).
Proof. intros n t c H F. exists [], t, c. split; [reflexivity|]. split; [exact H|]. intros t' m HI. rewrite Forall_forall in F. now apply F. Qed.
Definition next_of (next ss2 : list step) : Prop := next = [] \/ exists s r, next = [s] /\ ss2 = s :: r.
Lemma open_named : forall ss1 ss2 next n it, open_at ss1 ss2 n it -> next_of next ss2 -> last_named n (map announcement (ss1 ++ next)).
Proof.
  assert (A : Forall unnamed [announcement Ask]) by (constructor; [apply unnamed_head; discriminate|constructor]).
  assert (M : forall n it, names_index n (announcement (Make n it))) by (intros; left; reflexivity).
  assert (U : forall n it, names_index n (announcement (Unmake n it))) by (intros; right; reflexivity).
  intros ss1 ss2 next n it [(s1 & -> & H)|(s1 & -> & H)] [->|(s & r & -> & ->)]; rewrite !map_app; cbn [map app]; rewrite <- ?app_assoc; cbn [app].
  - apply (named_app n _ [_] []); [apply named_one; auto|constructor].
  - subst s. apply (named_app n _ [_] [announcement Ask]); [apply named_one; auto|exact A].
  - apply (named_app n _ [_] [announcement Ask]); [apply named_one; auto|exact A].
  - subst s. rewrite <- (app_nil_r [announcement (Make n it); announcement Ask; announcement (Unmake n it)]).
    apply (named_app n _ [announcement (Make n it); announcement Ask; announcement (Unmake n it)] []); [|constructor].
    exists [announcement (Make n it); announcement Ask], (announcement (Unmake n it)), []. split; [reflexivity|]. split; [apply U|]. intros t' m [].
Qed.
Section Prefix.
Context (sact : step -> act).
Lemma weave_prefix : forall ss p q, weave sact ss = p ++ q -> exists ss1 next ss2, ss = ss1 ++ ss2 /\ p = weave sact ss1 ++ map (fun s => Said Info (announcement s)) next /\ next_of next ss2.
Proof.
  induction ss as [|s ss IH]; intros p q E.
  - symmetry in E. apply app_eq_nil in E as [-> ->]. exists [], [], []. split; [reflexivity|]. split; [reflexivity|now left].
  - change (weave sact (s :: ss)) with (Said Info (announcement s) :: Did (sact s) :: weave sact ss) in E.
    destruct p as [|x p]; [exists [], [], (s :: ss); split; [reflexivity|]; split; [reflexivity|now left]|]. injection E as <- E.
    destruct p as [|x p]; [exists [], [s], (s :: ss); split; [reflexivity|]; split; [reflexivity|right; now exists s, ss]|]. injection E as <- E.
    destruct (IH _ _ E) as (ss1 & next & ss2 & -> & -> & N). exists (s :: ss1), next, ss2. split; [reflexivity|]. split; [reflexivity|exact N].
Qed.
(** Entries that are no step of an examination and name no index *)
Definition aside (e : entry act) : Prop := match e with Said Info t => unnamed t | Said _ _ => True | Did a => forall s, a <> sact s end.
Lemma aside_acts : forall d a, Forall aside d -> In a (acts d) -> forall s, a <> sact s.
Proof. intros d a F H s. apply in_acts in H. rewrite Forall_forall in F. exact (F _ H s). Qed.
Lemma aside_lines : forall d, Forall aside d -> Forall unnamed (at_level Info d).
Proof.
  induction 1 as [|[l t|a] d H F IH]; [constructor| |exact IH]. destruct l; [exact IH| |exact IH]. unfold at_level in *. cbn. constructor; [exact H|exact IH].
Qed.
Lemma announced_lines : forall ss, at_level Info (map (fun s => Said (A := act) Info (announcement s)) ss) = map announcement ss /\ acts (map (fun s => Said (A := act) Info (announcement s)) ss) = [].
Proof. induction ss as [|s ss [IH1 IH2]]; [auto|]. split; [|exact IH2]. unfold at_level in *. cbn. f_equal. exact IH1. Qed.
Lemma killed_parts : forall a ss z, in_turn ss -> Forall aside a -> Forall aside z -> killed_told sact (a ++ weave sact ss ++ z).
Proof.
  intros a ss z HT FA FZ p q E.
  assert (C : exists a1 ss1 next ss2 z1, p = a1 ++ weave sact ss1 ++ map (fun s => Said Info (announcement s)) next ++ z1 /\ Forall aside a1 /\ Forall aside z1 /\ ss = ss1 ++ ss2 /\ next_of next ss2).
  { apply app_eq_app in E as (l & [[H1 H2]|[H1 H2]]).
    - exists p, [], [], ss, []. rewrite app_nil_r. subst a. apply Forall_app in FA as [FA _]. repeat apply conj; auto. now left.
    - symmetry in H2. apply app_eq_app in H2 as (m & [[K1 K2]|[K1 K2]]).
      + exists a, ss, [], [], m. subst p l. repeat apply conj; auto; [subst z; now apply Forall_app in FZ|now rewrite app_nil_r|now left].
      + destruct (weave_prefix _ _ _ K1) as (ss1 & next & ss2 & -> & -> & N). exists a, ss1, next, ss2, []. subst p. rewrite app_nil_r. repeat apply conj; auto. }
  destruct C as (a1 & ss1 & next & ss2 & z1 & -> & F1 & F2 & -> & N). exists (acts a1), ss1, (acts z1). rewrite !acts_app, (proj2 (announced_lines next)), acts_weave. split; [reflexivity|].
  split; [|split; [now exists ss2|]].
  - intros x s HI. apply in_app_or in HI as [HI|HI]; [now apply (aside_acts a1)|now apply (aside_acts z1)].
  - intros n it L. pose proof (turn_open _ _ _ _ _ HT eq_refl L) as O. split.
    + rewrite !at_app, (proj1 (at_weave sact ss1)), (proj1 (announced_lines next)). rewrite (app_assoc (map announcement ss1)), <- map_app. apply named_app; [now apply (open_named ss1 ss2 next n it)|now apply aside_lines].
    + intros n' it' L'. pose proof (turn_open _ _ _ _ _ HT eq_refl L') as O'. exact (open_one _ _ _ _ _ _ O O').
Qed.
End Prefix.
Section Commands.
Context {W : Type} (create drop : gostring -> index_target -> act) (query : act).
Notation sact := (act_of create drop query).
Context (no_write : forall p b s, AWrite p b <> sact s).
Lemma calm_aside : forall d, Forall (calm create drop query) d -> Forall (aside sact) d.
Proof. intros d H. eapply Forall_impl; [|exact H]. intros [l t|a] [K _]; [cbn in K; now subst l|exact K]. Qed.
Lemma debug_aside : forall ls, Forall (aside sact) (map (Said Debug) ls).
Proof. intros ls. apply Forall_forall. intros e H. apply in_map_iff in H as (t & <- & _). exact I. Qed.
Lemma shape_killed : forall wd output d r, cmd_shape create drop query wd output d r -> killed_told sact d.
Proof.
  intros wd output d r [[C1 C2]|(pre & its & tls & d' & -> & C1 & C2 & (mid & ss & dl & wr & post & -> & C3 & C4 & [CT C5]))].
  - pose proof (killed_parts sact d [] [] (or_introl eq_refl) (calm_aside _ C1) (Forall_nil _)) as K. cbn in K. now rewrite app_nil_r in K.
  - assert (Z : Forall (aside sact) (wr ++ map (Said Info) (end_lines wd output r) ++ post)).
    { apply Forall_app. split; [|apply Forall_app; split; [|now apply calm_aside]].
      - destruct C5 as [->|(b & -> & _)]; constructor; [|constructor]. intros s. apply no_write.
      - apply Forall_forall. intros e H. apply in_map_iff in H as (t & <- & H). unfold end_lines in H. destruct r as [u|m|]; [|destruct H|destruct H]. destruct output as [|c o]; [destruct H|].
        destruct (logged_output wd (c :: o)) as [x|]; [|destruct H]. destruct H as [<-|[]]. apply unnamed_head; discriminate. }
    assert (A : Forall (aside sact) (pre ++ map (Said Debug) tls ++ mid)) by (apply Forall_app; split; [now apply calm_aside|apply Forall_app; split; [apply debug_aside|now apply calm_aside]]).
    destruct ss as [|s ss].
    + cbn [examination app]. pose proof (killed_parts sact _ [] _ (or_introl eq_refl) A Z) as K. cbn [weave flat_map app] in K. rewrite <- !app_assoc in K. exact K.
    + cbn [examination]. assert (A' : Forall (aside sact) ((pre ++ map (Said Debug) tls ++ mid) ++ [Said Info (of_string "Start examination...")])).
      { apply Forall_app. split; [exact A|]. constructor; [apply unnamed_head; discriminate|constructor]. }
      assert (Z' : Forall (aside sact) (map (Said Debug) dl ++ wr ++ map (Said Info) (end_lines wd output r) ++ post)) by (apply Forall_app; split; [apply debug_aside|exact Z]).
      pose proof (killed_parts sact _ _ _ CT A' Z') as K. rewrite <- !app_assoc in K. cbn [app] in K. rewrite <- ?app_assoc. cbn [app]. rewrite <- ?app_assoc. exact K.
Qed.
End Commands.

(** ** C132 *)
Section Runs.
Context {W : Type} (tord : list (gostring * list index_result) -> list (gostring * list index_result)) (rsrt : list index_result -> list index_result)
  (tord_ok : forall l, Permutation (tord l) l) (rsrt_ok : is_sort faster rsrt)
  (fold : rune -> rune) (so : list gostring -> list gostring)
  (ord : order gostring) (ordf : order ifield) (srt : list index_target_table -> list index_target_table)
  (unix : N) (rnds : nat -> N) (wd : option gostring) (runs : bool) (texts : list gostring) (query output : gostring).
(** Wherever a command is stopped, at most one index is left in the database, and it is the
    one named in the last line on the screen that names an index. *)
Theorem mysql_killed : forall (sv : world W) low parse env w,
    let '(d, w', r) := mysql_aloud tord rsrt fold so ord ordf srt unix rnds wd runs texts query output sv low parse env w in killed_told (my_step query) d.
Proof.
  intros sv low parse env w. pose proof (mysql_shaped tord rsrt tord_ok rsrt_ok fold so ord ordf srt unix rnds wd runs texts query output sv low parse env w) as H.
  destruct (mysql_aloud _ _ _ _ _ _ _ _ _ _ _ _ _ _ _ _ _ _ w) as [[d w'] r]. eapply shape_killed; [intros ? ? [|? ?|? ?]; discriminate|exact (H _ _ _ eq_refl)].
Qed.
Theorem pg_killed : forall (sv : world W) norm parse env w,
    let '(d, w', r) := pg_aloud tord rsrt fold so ord ordf srt unix rnds wd runs texts query output sv norm parse env w in killed_told (pg_step query) d.
Proof.
  intros sv norm parse env w. pose proof (pg_shaped tord rsrt tord_ok rsrt_ok fold so ord ordf srt unix rnds wd runs texts query output sv norm parse env w) as H.
  destruct (pg_aloud _ _ _ _ _ _ _ _ _ _ _ _ _ _ _ _ _ _ w) as [[d w'] r]. eapply shape_killed; [intros ? ? [|? ?|? ?]; discriminate|exact (H _ _ _ eq_refl)].
Qed.
Theorem hasura_killed : forall (hv : HasuraProgram.hworld W) unmarshal kfold norm parse scan variables float parse_url env w,
    let '(d, w', r) := hasura_aloud tord rsrt fold so ord ordf srt unix rnds wd runs texts query output hv unmarshal kfold norm parse scan variables float parse_url env w in
    killed_told (hasura_step query (variables_of float unmarshal variables)) d.
Proof.
  intros hv unmarshal kfold norm parse scan variables float parse_url env w.
  pose proof (hasura_shaped tord rsrt tord_ok rsrt_ok fold so ord ordf srt unix rnds wd runs texts query output hv unmarshal kfold norm parse scan variables float parse_url env w) as H.
  destruct (hasura_aloud _ _ _ _ _ _ _ _ _ _ _ _ _ _ _ _ _ _ _ _ _ _ _ _ w) as [[d w'] r]. eapply shape_killed; [intros ? ? [|? ?|? ?]; discriminate|exact (H _ _ _ eq_refl)].
Qed.
End Runs.
(** Killed while the query runs with the second index *)
Definition ex_killed : list (entry act) :=
  firstn 25 (fst (fst (DiaryCases.my_run ProgramMyProperties.ex_env true [lit "users:email"; lit "users:name"] (lit "out.html") 0))).
Definition ex_target (c : string) : index_target := {| it_table := lit "users"; it_cols := [lit c] |}.
Definition ex_steps : list step :=
  [Ask; Make (lit "7_email") (ex_target "email"); Ask; Unmake (lit "7_email") (ex_target "email"); Make (lit "7_name") (ex_target "name"); Ask].
Example killed_ex :
  at_level Info ex_killed = map (@of_string) ["Start examination..."; "Executing query..."; "Creating index(7_email)..."; "Executing query..."; "Dropping index(7_email)...";
    "Creating index(7_name)..."; "Executing query..."]%string /\
  filter (fun a => match a with AExec _ => true | _ => false end) (acts ex_killed) = map (my_step ProgramMyProperties.ex_query) (removelast ex_steps) /\
  left_by (removelast ex_steps) (lit "7_name") (ex_target "name") /\ last_named (lit "7_name") (at_level Info ex_killed).
Proof.
  split; [vm_compute; reflexivity|]. split; [vm_compute; reflexivity|]. split; [exists (firstn 4 ex_steps), []; split; [reflexivity|intros []]|].
  assert (E : at_level Info ex_killed = map (@of_string) ["Start examination..."; "Executing query..."; "Creating index(7_email)..."; "Executing query..."; "Dropping index(7_email)..."]%string
    ++ [of_string "Creating index(7_name)..."; of_string "Executing query..."]) by (vm_compute; reflexivity).
  rewrite E. eexists _, _, _. split; [reflexivity|]. split; [left; reflexivity|]. intros t' m [<-|[]]. apply unnamed_head; discriminate.
Qed.

Print Assumptions mysql_killed.
Print Assumptions pg_killed.
Print Assumptions hasura_killed.
