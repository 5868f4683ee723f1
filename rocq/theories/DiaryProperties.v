(** C126, C127: what a suggest command logs and when. *)
From Coq Require Import String List NArith ZArith QArith Bool Lia Arith Permutation Sorted Qabs Lqa.
From Verif Require Import Base Dec IndexText IndexTextSpec IndexTextProofs IndexBuild TableFields Existing ExplainTree PlanView SqlServer MetaSql Examiner SuggestCmd Json HandOver CommandText Program Paths Floats FloatsSpec Diary DiarySpec DiaryProofs.
From Verif Require MysqlExplain PgExplain MysqlAst MysqlCollect PgAst PgCollect ConnText Hasura HasuraProgram ProgramProofs PathsSpec PathsProperties FloatsProofs.
Import ListNotations.
Local Open Scope nat_scope.

(** ** Lines and their places *)
Lemma acts_lines : forall A l ls, acts (map (@Said A l) ls) = [].
Proof. induction ls; cbn; auto. Qed.
Section Places.
Context (step_act : step -> act).
Definition stepless (e : entry act) : Prop := match e with Said l _ => l = Debug | Did a => forall s, a <> step_act s end.
Definition adjacent (d : list (entry act)) : Prop := forall p a q s, d = p ++ Did a :: q -> a = step_act s -> exists p' s', a = step_act s' /\ p = p' ++ [Said Info (announcement s')].
Definition weave (ss : list step) : list (entry act) := flat_map (fun s => [Said Info (announcement s); Did (step_act s)]) ss.
Lemma adjacent_app : forall a b, adjacent a -> adjacent b -> adjacent (a ++ b).
Proof.
  intros a b HA HB p x q s H E. apply app_eq_app in H as (l & [[H1 H2]|[H1 H2]]).
  - destruct l as [|e l].
    + cbn in H2. destruct (HB [] x q s) as (p' & s' & _ & K); [now rewrite <- H2|exact E|]. now destruct p'.
    + injection H2 as <- H2. apply (HA p x l s H1 E).
  - destruct (HB l x q s H2 E) as (p' & s' & K1 & K2). exists (a ++ p'), s'. split; [exact K1|]. rewrite H1, K2. now rewrite app_assoc.
Qed.
Lemma adjacent_stepless : forall d, Forall stepless d -> adjacent d.
Proof.
  intros d H p a q s -> E. rewrite Forall_forall in H. specialize (H (Did a)). cbn in H. elim (H (in_elt _ _ _) s E).
Qed.
Lemma adjacent_weave : forall ss, adjacent (weave ss).
Proof.
  induction ss as [|s ss IH]; [intros p a q s H; now destruct p|]. change (weave (s :: ss)) with ([Said Info (announcement s); Did (step_act s)] ++ weave ss).
  apply adjacent_app; [|exact IH]. intros p a q s' H E. destruct p as [|x [|y p]]; [discriminate| |].
  - injection H as <- <- _. exists [], s. auto.
  - injection H as _ _ H. now destruct p.
Qed.
Lemma at_app : forall l a b, at_level l (a ++ b) = at_level l a ++ at_level l b.
Proof. intros. unfold at_level. rewrite said_app. apply flat_map_app. Qed.
Lemma at_stepless : forall d, Forall stepless d -> at_level Info d = [] /\ at_level Error d = [].
Proof.
  induction d as [|[l t|a] d IH]; intros H; [auto| |]; inversion H as [|? ? H1 H2]; subst; destruct (IH H2) as [K1 K2].
  - cbn in H1. subst l. unfold at_level in *. cbn. auto.
  - exact (conj K1 K2).
Qed.
Lemma at_weave : forall ss, at_level Info (weave ss) = map announcement ss /\ at_level Error (weave ss) = [].
Proof. induction ss as [|s ss [IH1 IH2]]; [auto|]. unfold at_level in *. cbn. split; [f_equal; exact IH1|exact IH2]. Qed.
Lemma acts_weave : forall ss, acts (weave ss) = map step_act ss.
Proof. induction ss as [|s ss IH]; cbn; [reflexivity|f_equal; exact IH]. Qed.
Lemma in_acts : forall (d : list (entry act)) a, In a (acts d) <-> In (Did a) d.
Proof.
  induction d as [|[l t|b] d IH]; intros a; cbn; [tauto| |].
  - rewrite IH. split; [auto|]. intros [K|K]; [discriminate|exact K].
  - rewrite IH. split; (intros [K|K]; [left|right; exact K]); [now rewrite K|now injection K].
Qed.
(** An examination: announced steps, then the results *)
Definition examination (ss : list step) (dl : list gostring) : list (entry act) :=
  match ss with [] => [] | _ => Said Info (of_string "Start examination...") :: weave ss ++ map (Said Debug) dl end.
Lemma stepless_lines : forall ls, Forall stepless (map (Said Debug) ls).
Proof. intros ls. apply Forall_forall. intros e H. apply in_map_iff in H as (t & <- & _). reflexivity. Qed.
(** What [told_in_step] needs of a diary *)
Lemma told_parts : forall pre ss dl wr ending post, in_turn ss -> Forall stepless pre -> Forall stepless wr -> Forall stepless post ->
    told_in_step step_act ending (pre ++ examination ss dl ++ wr ++ map (Said Info) ending ++ post).
Proof.
  intros pre ss dl wr ending post HT H1 H2 H3.
  assert (AE : acts (examination ss dl) = map step_act ss).
  { destruct ss as [|s ss]; [reflexivity|]. unfold examination. cbn [acts]. rewrite acts_app, acts_weave. rewrite acts_lines. apply app_nil_r. }
  split; [|split].
  - exists (acts pre), ss, (acts (wr ++ post)). split; [|split; [exact HT|split]].
    + rewrite !acts_app, AE, acts_lines. reflexivity.
    + intros a s K. rewrite <- acts_app in K. apply in_acts in K. apply in_app_or in K as [K|K]; [|apply in_app_or in K as [K|K]].
      * rewrite Forall_forall in H1. exact (H1 _ K s).
      * rewrite Forall_forall in H2. exact (H2 _ K s).
      * rewrite Forall_forall in H3. exact (H3 _ K s).
    + rewrite !at_app, (proj1 (at_stepless pre H1)), (proj1 (at_stepless wr H2)), (proj1 (at_stepless post H3)), app_nil_r. cbn [app].
      assert (L : at_level Info (map (Said (A := act) Info) ending) = ending) by (induction ending as [|t l IH]; [reflexivity|]; unfold at_level in *; cbn; now rewrite IH).
      rewrite L. destruct ss as [|s ss]; [reflexivity|]. unfold examination. change (at_level Info (Said Info (of_string "Start examination...") :: weave (s :: ss) ++ map (Said Debug) dl)) with (of_string "Start examination..." :: at_level Info (weave (s :: ss) ++ map (Said Debug) dl)).
      rewrite at_app, (proj1 (at_weave _)), (proj1 (at_stepless _ (stepless_lines dl))), app_nil_r. reflexivity.
  - assert (AL : adjacent (map (Said Info) ending)) by (intros p a q s K _; assert (K' : In (Did a) (map (Said (A := act) Info) ending)) by (rewrite K; apply in_elt); apply in_map_iff in K' as (t & K' & _); discriminate).
    apply (adjacent_app pre); [now apply adjacent_stepless|]. apply adjacent_app.
    + destruct ss as [|s ss]; [apply adjacent_stepless; constructor|]. apply (adjacent_app [Said Info _]); [|apply adjacent_app; [apply adjacent_weave|apply adjacent_stepless, stepless_lines]].
      intros p a q s' K _. destruct p as [|x [|y p]]; discriminate.
    + apply adjacent_app; [now apply adjacent_stepless|]. apply adjacent_app; [exact AL|now apply adjacent_stepless].
  - rewrite !at_app, (proj2 (at_stepless pre H1)), (proj2 (at_stepless wr H2)), (proj2 (at_stepless post H3)).
    assert (L : at_level Error (map (Said (A := act) Info) ending) = []) by (induction ending as [|t l IH]; [reflexivity|exact IH]). rewrite L.
    destruct ss as [|s ss]; [reflexivity|]. unfold examination. change (at_level Error (Said Info (of_string "Start examination...") :: weave (s :: ss) ++ map (Said Debug) dl)) with (at_level Error (weave (s :: ss) ++ map (Said Debug) dl)).
    now rewrite at_app, (proj2 (at_weave _)), (proj2 (at_stepless _ (stepless_lines dl))).
Qed.
End Places.

(** ** The lines about the results *)
Lemma int_whole : forall z, whole z (int_text z).
Proof.
  intros z. unfold int_text, whole. destruct (Z.ltb_spec z 0) as [H|H]; [right; exists (Z.to_N (- z))|left; exists (Z.to_N z)].
  - split; [lia|]. split; [lia|reflexivity].
  - split; [lia|reflexivity].
Qed.
Lemma reduced_percent : forall rnd t o, rounding rnd -> (0 <= o)%Z -> (0 <= t)%Z -> (t + o <= 1000000000000)%Z -> percent t o (f_reduced_text rnd t o).
Proof.
  intros rnd t o RND HO HT HS. unfold f_reduced_text, percent. destruct (Z.eqb_spec o 0) as [->|NZ].
  - destruct (Z.eqb_spec t 0) as [->|NT]; [left; auto|]. right. left. destruct (Z.ltb_spec 0 t); [auto|lia].
  - right. right. split; [lia|]. destruct (FloatsProofs.reduction_error rnd RND t o HT ltac:(lia) HS) as [E SG].
    destruct (FloatsProofs.places_near (f_reduction rnd t o) o (100 * (o - t)) 10 (round_even (Qabs (f_reduction rnd t o) * 10)%Q) ltac:(lia) eq_refl) as [N0 N1].
    { rewrite inject_Z_mult. unfold Z.sub. rewrite inject_Z_plus, inject_Z_opp. eapply Qle_lt_trans; [apply Qmult_le_l; [reflexivity|exact E]|].
      apply FloatsProofs.inject_le in HS. change (inject_Z 1000000000000) with 1000000000000%Q in HS. change (inject_Z 10) with 10%Q. lra. }
    { apply FloatsProofs.round_even_half. }
    unfold one_place. cbv zeta. set (n := round_even (Qabs (f_reduction rnd t o) * 10)%Q) in *.
    exists (Z.to_N n mod 10)%N. split; [apply N.mod_lt; lia|]. exists (Z.to_N n / 10)%N. split.
    + replace (Qle_bool 0 (f_reduction rnd t o)) with (negb (Z.ltb o t)); [destruct (Z.ltb o t); reflexivity|].
      destruct (Z.ltb_spec o t) as [L|L]; cbn [negb]; symmetry.
      * apply not_true_iff_false. intros K. apply Qle_bool_iff in K. apply SG in K. lia.
      * apply Qle_bool_iff. now apply SG.
    + rewrite <- (N.div_mod (Z.to_N n) 10) by lia. rewrite Z2N.id by exact N0. replace (1000 * Z.abs (o - t))%Z with (10 * Z.abs (100 * (o - t)))%Z by lia. exact N1.
Qed.
Lemma safe_tidy : forall s, tidy s (safe_name s).
Proof.
  intros s. rewrite safe_name_map. unfold tidy. induction s as [|c s IH]; cbn [map]; [constructor|]. constructor; [|exact IH].
  unfold safe_char. destruct (is_word c) eqn:E; [left|right]; (split; [|reflexivity]).
  - now apply is_word_iff.
  - intros K. apply is_word_iff in K. congruence.
Qed.
Lemma time_line_told : forall orig r, time_told orig r (time_line orig r).
Proof.
  intros orig r. exists (int_text (ir_millis r)), (reduced_text (ir_millis r) orig), (map safe_name (it_cols (ir_target r))).
  split; [apply int_whole|]. split; [intros; apply reduced_percent; [exact FloatsProofs.fl_rounding|assumption..]|]. split; [|reflexivity]. induction (it_cols (ir_target r)); cbn [map]; constructor; [apply safe_tidy|assumption].
Qed.
Definition table_of (r : index_result) : gostring := it_table (ir_target r).
Definition grouped (g : list (gostring * list index_result)) : Prop :=
  NoDup (map fst g) /\ forall t rs, In (t, rs) g -> rs <> [] /\ forall r, In r rs -> table_of r = t.
Lemma add_fst : forall r g t, In t (map fst (add_result r g)) <-> t = table_of r \/ In t (map fst g).
Proof.
  intros r. unfold table_of. induction g as [|[t' rs] g IH]; intros t; cbn [add_result map fst In].
  - split; [intros [H|[]]; left; now symmetry|]. intros [H|[]]; left; now symmetry.
  - destruct (seqb_spec (it_table (ir_target r)) t') as [E|E]; cbn [map fst In].
    + split; [tauto|]. intros [H|H]; [left; congruence|exact H].
    + rewrite IH. tauto.
Qed.
Lemma add_grouped : forall r g, grouped g -> grouped (add_result r g) /\ Permutation (concat (map snd (add_result r g))) (r :: concat (map snd g)).
Proof.
  intros r. induction g as [|[t rs] g IH]; intros [HN HG]; cbn [add_result].
  - split; [|apply Permutation_refl]. split; [constructor; [tauto|constructor]|]. intros t rs [K|[]]. injection K as <- <-. split; [discriminate|]. intros x [<-|[]]. reflexivity.
  - inversion HN as [|? ? N1 N2]; subst. destruct (IH (conj N2 (fun t' rs' K => HG t' rs' (or_intror K)))) as [[I1 I2] I3].
    destruct (seqb_spec (it_table (ir_target r)) t) as [E|E].
    + split; [split; [exact HN|]|].
      * intros t' rs' [K|K]; [|now apply HG; right]. injection K as <- <-. split; [destruct rs; discriminate|]. destruct (HG t rs (or_introl eq_refl)) as [_ G2].
        intros x K. apply in_app_or in K as [K|[<-|[]]]; [now apply G2|exact E].
      * cbn [map snd concat]. rewrite <- app_assoc. cbn [app]. symmetry. apply Permutation_middle.
    + split; [split|].
      * cbn [map fst]. constructor; [|exact I1]. intros K. apply add_fst in K as [K|K]; [unfold table_of in K; congruence|now apply N1].
      * intros t' rs' [K|K]; [injection K as <- <-; apply HG; now left|now apply I2].
      * cbn [map snd concat]. rewrite I3. symmetry. apply Permutation_middle.
Qed.
Lemma by_table_grouped : forall rs, grouped (by_table rs) /\ Permutation (concat (map snd (by_table rs))) rs.
Proof.
  assert (H : forall rs g, grouped g -> grouped (fold_left (fun g r => add_result r g) rs g) /\ Permutation (concat (map snd (fold_left (fun g r => add_result r g) rs g))) (rev rs ++ concat (map snd g))).
  { induction rs as [|r rs IH]; intros g HG; cbn [fold_left rev]; [split; [exact HG|apply Permutation_refl]|]. destruct (add_grouped r g HG) as [A B]. destruct (IH _ A) as [C D]. split; [exact C|].
    rewrite D, B, <- app_assoc. reflexivity. }
  intros rs. destruct (H rs []) as [A B]; [split; [constructor|intros t l []]|]. split; [exact A|]. cbn in B. rewrite app_nil_r in B. unfold by_table. rewrite B. symmetry. apply Permutation_rev.
Qed.
Lemma concat_sorted : forall (rsrt : list index_result -> list index_result) g, (forall l, Permutation (rsrt l) l) ->
    Permutation (concat (map snd (map (fun x : gostring * list index_result => (fst x, rsrt (snd x))) g))) (concat (map snd g)).
Proof. intros rsrt g H. induction g as [|x g IH]; cbn; [constructor|]. now rewrite H, IH. Qed.
Lemma concat_perm : forall (a b : list (gostring * list index_result)), Permutation a b -> Permutation (concat (map snd a)) (concat (map snd b)).
Proof.
  intros a b H. induction H; cbn; [constructor|now rewrite IHPermutation| |now rewrite IHPermutation1]. rewrite !app_assoc. apply Permutation_app_tail, Permutation_app_comm.
Qed.
Lemma sorted_le : forall rs, sorted_by faster rs -> StronglySorted (fun a b => (ir_millis a <= ir_millis b)%Z) rs.
Proof.
  intros rs H. induction H as [|x l H1 H2 IH]; constructor; [exact IH|]. rewrite Forall_forall in *. intros y K. specialize (H1 y K). unfold faster in H1. apply Z.ltb_ge in H1. exact H1.
Qed.
Lemma lines_results : forall tord rsrt er, (forall l, Permutation (tord l) l) -> is_sort faster rsrt ->
    exists ls, result_lines tord rsrt (er_original er) (er_results er) = map (Said Debug) ls /\ lists_results er ls.
Proof.
  intros tord rsrt er HT HS. unfold result_lines. set (o := er_original er). set (G := tord (by_table (er_results er))).
  destruct (by_table_grouped (er_results er)) as [[HN HG] HP].
  assert (L : exists rest, flat_map (fun g => Said Debug (lit "==Table: " ++ fst g) :: map (fun r => Said Debug (time_line o r)) (rsrt (snd g))) G = map (@Said event Debug) rest /\
     tables_told o (map (fun x => (fst x, rsrt (snd x))) G) rest).
  { clearbody G. induction G as [|g G (rest & IH1 & IH2)]; [exists []; split; [reflexivity|constructor]|].
    exists ((lit "==Table: " ++ fst g) :: map (time_line o) (rsrt (snd g)) ++ rest). split.
    - cbn [flat_map map]. rewrite IH1, map_app, map_map. reflexivity.
    - cbn [map]. constructor; [|exact IH2]. induction (rsrt (snd g)); cbn [map]; constructor; [apply time_line_told|assumption]. }
  destruct L as (rest & L1 & L2). exists (lit "====RESULT====" :: (lit "Original Time: " ++ int_text o ++ lit "ms") :: rest). split; [cbn [map]; now rewrite L1|].
  exists (int_text o), (map (fun x => (fst x, rsrt (snd x))) G), rest. split; [apply int_whole|]. split; [reflexivity|]. split; [|split; [|split; [|exact L2]]].
  - rewrite map_map. apply (Permutation_NoDup (l := map fst (by_table (er_results er)))); [|exact HN]. cbn [fst]. apply Permutation_map. symmetry. apply HT.
  - rewrite concat_sorted by (intros l; apply HS). rewrite (concat_perm G (by_table (er_results er))) by apply HT. exact HP.
  - intros t rs K. apply in_map_iff in K as ([t' rs'] & K & K'). cbn [fst snd] in K. injection K as <- <-. apply (Permutation_in _ (HT _)) in K'.
    destruct (HG t' rs' K') as [G1 G2]. destruct (HS rs') as [S1 S2]. split; [|split].
    + intros E. rewrite E in S1. apply Permutation_nil in S1. contradiction.
    + intros r Hr. apply G2. eapply Permutation_in; [exact S1|exact Hr].
    + now apply sorted_le.
Qed.

(** ** The shape of a run *)
Definition step_of (e : event) : step := match e with EvExecute _ => Ask | EvCreate n it _ => Make n it | EvDrop n it _ => Unmake n it end.
Definition ewoven (evs : list event) : list (entry event) := flat_map (fun e => [Said Info (announcement (step_of e)); Did e]) evs.
Section Examine.
Context {W : Type} (db : database W) (tord : list (gostring * list index_result) -> list (gostring * list index_result)) (rsrt : list index_result -> list index_result).
Lemma examine_shape : forall w id rnd it d w' r, examine_told db w id rnd it = (d, w', r) ->
    exists evs, d = ewoven evs /\ trials (map step_of evs) /\ forall x, r = Ok x -> forall ss, trials ss -> trials (map step_of evs ++ ss).
Proof.
  intros w id rnd it d w' r H. unfold examine_told in H. destruct (db_create db w _ it) as [w1 [e|]].
  - injection H as <- _ <-. exists [EvCreate (idx_name id rnd it) it (Some e)]. split; [reflexivity|]. split; [constructor|]. discriminate.
  - destruct (db_execute db w1) as [w2 ex]. destruct (db_drop db w2 _ it) as [w3 derr].
    assert (K : d = ewoven [EvCreate (idx_name id rnd it) it None; EvExecute ex; EvDrop (idx_name id rnd it) it derr]) by (destruct ex, derr; injection H as <- _ _; reflexivity).
    eexists. split; [exact K|]. cbn [map step_of app]. split; [constructor; constructor|]. intros _ _ ss HS. now constructor.
Qed.
Lemma loop_shape : forall its w id rnds k d w' r, loop_told db w id rnds k its = (d, w', r) -> exists evs, d = ewoven evs /\ trials (map step_of evs).
Proof.
  induction its as [|it its IH]; intros w id rnds k d w' r H; cbn [loop_told] in H; [injection H as <- _ _; exists []; split; [reflexivity|constructor]|].
  destruct (examine_told db w id (rnds k) it) as [[d1 w1] r1] eqn:E. destruct (examine_shape _ _ _ _ _ _ _ E) as (evs & -> & T1 & T2).
  destruct r1 as [res|e|]; [|injection H as <- _ _; eauto|injection H as <- _ _; eauto].
  destruct (loop_told db w1 id rnds (S k) its) as [[d2 w2] r2] eqn:E2. destruct (IH _ _ _ _ _ _ _ E2) as (evs2 & -> & T3). injection H as <- _ _.
  exists (evs ++ evs2). unfold ewoven. rewrite flat_map_app, map_app. split; [reflexivity|]. exact (T2 _ eq_refl _ T3).
Qed.
Lemma run_shape : forall w unix rnds its d w' r, run_told db tord rsrt w unix rnds its = (d, w', r) ->
    exists ev evs, d = ewoven (ev :: evs) ++ match r with Ok er => result_lines tord rsrt (er_original er) (er_results er) | _ => [] end /\ in_turn (map step_of (ev :: evs)).
Proof.
  intros w unix rnds its d w' r H. unfold run_told in H. destruct (db_execute db w) as [w1 [orig|e]].
  - destruct (loop_told db w1 (dec_of_N unix) rnds 0 its) as [[d2 w2] r2] eqn:E. destruct (loop_shape _ _ _ _ _ _ _ _ E) as (evs & -> & T).
    exists (EvExecute (inl orig)), evs. split; [|right; exists (map step_of evs); split; [reflexivity|exact T]].
    destruct r2 as [rs|e|]; injection H as <- _ <-; [reflexivity| |]; now rewrite app_nil_r.
  - injection H as <- _ <-. exists (EvExecute (inr e)), []. split; [reflexivity|]. right. exists []. split; [reflexivity|constructor].
Qed.
End Examine.

Section Commands.
Context {W : Type} (create drop : gostring -> index_target -> act) (query : act).
Notation sact := (act_of create drop query).
Context (no_select : forall rq s, ASelect rq <> sact s) (no_write : forall p b s, AWrite p b <> sact s)
  (no_open : forall c s, AOpen c <> sact s) (no_close : forall s, AClose <> sact s).
Definition calm (e : entry act) : Prop := stepless sact e /\ forall p b, e <> Did (AWrite p b).
Definition calm_prog {A} (p : @noisy W A) : Prop := forall w d w' r, p w = (d, w', r) -> Forall calm d.
Lemma calm_steps : forall d, Forall calm d -> Forall (stepless sact) d.
Proof. intros d H. eapply Forall_impl; [|exact H]. now intros a [K _]. Qed.
Lemma calm_lines : forall ls, Forall calm (map (Said Debug) ls).
Proof. intros ls. apply Forall_forall. intros e H. apply in_map_iff in H as (t & <- & _). split; [reflexivity|discriminate]. Qed.
Lemma calm_give : forall A (x : outcome A), calm_prog (quiet (give x)).
Proof. intros A x w d w' r H. injection H as <- _ _. constructor. Qed.
Lemma calm_then : forall A B (p : noisy A) (f : A -> noisy B), calm_prog p -> (forall x, calm_prog (f x)) -> calm_prog (nthen p f).
Proof.
  intros A B p f HP HF w d w' r H. unfold nthen in H. destruct (p w) as [[d1 w1] r1] eqn:E. apply HP in E. destruct r1 as [x|m|]; [|injection H as <- _ _; exact E|injection H as <- _ _; exact E].
  destruct (f x w1) as [[d2 w2] r2] eqn:E2. apply HF in E2. injection H as <- _ _. apply Forall_app; auto.
Qed.
Lemma calm_say : forall ls, calm_prog (say (map (fun t => (Debug, t)) ls)).
Proof. intros ls w d w' r H. injection H as <- _ _. rewrite map_map. apply calm_lines. Qed.
Definition calm_quiet {A} (p : @prog W A) : Prop := forall w tr w' r, p w = (tr, w', r) -> Forall calm (map Did tr).
Lemma calm_of_quiet : forall A (p : prog A), calm_quiet p -> calm_prog (quiet p).
Proof. intros A p H w d w' r E. unfold quiet in E. destruct (p w) as [[tr w1] r1] eqn:E1. apply H in E1. now injection E as <- _ _. Qed.
Lemma calm_qgive : forall A (x : outcome A), calm_quiet (give x).
Proof. intros A x w d w' r H. injection H as <- _ _. constructor. Qed.
Lemma calm_qthen : forall A B (p : prog A) (f : A -> prog B), calm_quiet p -> (forall x, calm_quiet (f x)) -> calm_quiet (andthen p f).
Proof.
  intros A B p f HP HF w d w' r H. unfold andthen in H. destruct (p w) as [[d1 w1] r1] eqn:E. apply HP in E. destruct r1 as [x|m|]; [|injection H as <- _ _; exact E|injection H as <- _ _; exact E].
  destruct (f x w1) as [[d2 w2] r2] eqn:E2. apply HF in E2. injection H as <- _ _. rewrite map_app. apply Forall_app; auto.
Qed.
Lemma calm_select : forall sv A m rq (f : _ -> outcome A), calm_quiet (select_as (W := W) sv m rq f).
Proof.
  intros sv A m rq f w d w' r H. unfold select_as in H. destruct (on_select sv w rq) as [w1 a]. injection H as <- _ _. constructor; [|constructor]. split; [intros s; apply no_select|discriminate].
Qed.
Lemma calm_post : forall hv path body, (forall s, APost path body <> sact s) -> calm_quiet (HasuraProgram.post (W := W) hv path body).
Proof.
  intros hv path body HS w d w' r H. unfold HasuraProgram.post in H. destruct (HasuraProgram.h_post hv w path body) as [[w1 z] a]. injection H as <- _ _. constructor; [|constructor]. split; [exact HS|discriminate].
Qed.

(** *** Whole commands *)
Context (wd : option gostring) (output : gostring).
Definition end_lines (r : outcome unit) : list gostring :=
  match r, output, logged_output wd output with Ok _, _ :: _, Some p => [of_string "Result html is at: " ++ p] | _, _, _ => [] end.
Definition written (its : list index_target) (ss : list step) (dl : list gostring) (wr : list (entry act)) : Prop :=
  in_turn ss /\ (wr = [] \/ exists b, wr = [Did (AWrite output b)] /\ report_targets b = its /\
    match report_result b with None => ss = [] | Some er => ss <> [] /\ lists_results er dl end).
Definition tail_shape (its : list index_target) (d : list (entry act)) (r : outcome unit) : Prop :=
  exists mid ss dl wr post, d = mid ++ examination sact ss dl ++ wr ++ map (Said Info) (end_lines r) ++ post /\ Forall calm mid /\ Forall calm post /\ written its ss dl wr.
Definition cmd_shape (d : list (entry act)) (r : outcome unit) : Prop :=
  (Forall calm d /\ end_lines r = []) \/
  exists pre its tls d', d = pre ++ map (Said Debug) tls ++ d' /\ Forall calm pre /\ lists_targets its tls /\ tail_shape its d' r.
Definition tailing (its : list index_target) (p : @noisy W unit) : Prop := forall w d w' r, p w = (d, w', r) -> tail_shape its d r.
Definition shaped (p : @noisy W unit) : Prop := forall w d w' r, p w = (d, w', r) -> cmd_shape d r.
Lemma shaped_then : forall A (p : noisy A) f, calm_prog p -> (forall x, shaped (f x)) -> shaped (nthen p f).
Proof.
  intros A p f HP HF w d w' r H. unfold nthen in H. destruct (p w) as [[d1 w1] r1] eqn:E. apply HP in E. destruct r1 as [x|m|]; [|injection H as <- _ <-; left; split; [exact E|reflexivity]|injection H as <- _ <-; left; split; [exact E|reflexivity]].
  destruct (f x w1) as [[d2 w2] r2] eqn:E2. injection H as <- _ <-. destruct (HF _ _ _ _ _ E2) as [[C1 C2]|(pre & its & tls & d' & -> & C1 & C2 & C3)].
  - left. split; [apply Forall_app; auto|exact C2].
  - right. exists (d1 ++ pre), its, tls, d'. split; [now rewrite <- app_assoc|]. split; [apply Forall_app; auto|]. split; assumption.
Qed.
Lemma shaped_fail : forall (p : noisy unit), calm_prog p -> (forall w d w' r, p w = (d, w', r) -> r <> Ok tt) -> shaped p.
Proof. intros p H K w d w' r E. left. split; [exact (H _ _ _ _ E)|]. apply K in E. destruct r as [[]| |]; [congruence|reflexivity|reflexivity]. Qed.
Lemma tailing_then : forall A its (p : noisy A) f, calm_prog p -> (forall x, tailing its (f x)) -> tailing its (nthen p f).
Proof.
  intros A its p f HP HF w d w' r H. unfold nthen in H. destruct (p w) as [[d1 w1] r1] eqn:E. apply HP in E.
  destruct r1 as [x|m|]; [|injection H as <- _ <-; exists d1, [], [], [], []; cbn; rewrite app_nil_r; repeat apply conj; auto; now left|injection H as <- _ <-; exists d1, [], [], [], []; cbn; rewrite app_nil_r; repeat apply conj; auto; now left].
  destruct (f x w1) as [[d2 w2] r2] eqn:E2. injection H as <- _ <-. destruct (HF _ _ _ _ _ E2) as (mid & ss & dl & wr & post & -> & C1 & C2 & C3).
  exists (d1 ++ mid), ss, dl, wr, post. split; [now rewrite <- app_assoc|]. split; [apply Forall_app; auto|]. split; assumption.
Qed.
Lemma numbered_nth : forall A text (f : A -> gostring) l k i x, nth_error l i = Some x -> nth_error (numbered text k f l) i = Some (text (k + i) ++ f x).
Proof.
  intros A text f. induction l as [|y l IH]; intros k i x H; destruct i as [|i]; try discriminate H; cbn [nth_error numbered] in *.
  - injection H as ->. now rewrite Nat.add_0_r.
  - rewrite (IH _ _ _ H). now rewrite <- plus_n_Sm.
Qed.
Lemma numbered_length : forall A text (f : A -> gostring) l k, length (numbered text k f l) = length l.
Proof. intros A text f. induction l as [|y l IH]; intros k; cbn; [reflexivity|now rewrite IH]. Qed.
Lemma target_lines_told : forall its, exists tls, target_lines its = map (fun t => (Debug, t)) tls /\ lists_targets its tls.
Proof.
  intros [|it its]; cbn [target_lines].
  - exists [lit "No possibly efficient index found. Perhaps already indexed?"]. split; [reflexivity|]. left. split; reflexivity.
  - eexists. split; [reflexivity|]. right. split; [discriminate|]. split; [|split; [reflexivity|]].
    + cbn [length]. now rewrite numbered_length.
    + intros i x H. change (nth_error (?a :: ?l) (S i)) with (nth_error l i). rewrite (numbered_nth _ _ _ _ _ _ _ H). f_equal. unfold target_text, combination. cbn [Nat.add app].
      f_equal. rewrite <- !app_assoc. reflexivity.
Qed.
Lemma shaped_targets : forall its f, tailing its (f tt) -> shaped (nthen (say (target_lines its)) f).
Proof.
  intros its f H w d w' r E. destruct (target_lines_told its) as (tls & L1 & L2). unfold nthen, say in E. rewrite L1, map_map in E. destruct (f tt w) as [[d2 w2] r2] eqn:E2.
  injection E as <- _ <-. right. exists [], its, tls, d2. split; [reflexivity|]. split; [constructor|]. split; [exact L2|]. exact (H _ _ _ _ E2).
Qed.
Context (tord : list (gostring * list index_result) -> list (gostring * list index_result)) (rsrt : list index_result -> list index_result)
  (tord_ok : forall l, Permutation (tord l) l) (rsrt_ok : is_sort faster rsrt).
Lemma entries_woven : forall evs, map (entry_statement create drop query) (ewoven evs) = weave sact (map step_of evs).
Proof. induction evs as [|e evs IH]; [reflexivity|]. destruct e; unfold ewoven in *; cbn [flat_map app map entry_statement]; rewrite IH; reflexivity. Qed.
Lemma examine_aloud_shape : forall (db : database W) unix rnds vars its w d w' r, examine_aloud tord rsrt db create drop query unix rnds vars its w = (d, w', r) ->
    exists ss dl, in_turn ss /\ ss <> [] /\ d = examination sact ss dl /\ forall er, r = Ok er -> lists_results er dl.
Proof.
  intros db unix rnds vars its w d w' r H. unfold examine_aloud, nthen, say in H. destruct (run_told db tord rsrt w unix rnds _) as [[d2 w2] r2] eqn:E. injection H as <- _ <-.
  destruct (run_shape _ _ _ _ _ _ _ _ _ _ E) as (ev & evs & -> & T).
  assert (L : exists dl, match r2 with Ok er => result_lines tord rsrt (er_original er) (er_results er) | _ => [] end = map (Said Debug) dl /\ forall er, r2 = Ok er -> lists_results er dl).
  { destruct r2 as [er|m|]; [|exists []; split; [reflexivity|discriminate]|exists []; split; [reflexivity|discriminate]].
    destruct (lines_results tord rsrt er tord_ok rsrt_ok) as (ls & L1 & L2). exists ls. split; [exact L1|]. intros er' K. injection K as <-. exact L2. }
  destruct L as (dl & L1 & L2). exists (map step_of (ev :: evs)), dl. split; [exact T|]. split; [discriminate|]. split; [|exact L2]. rewrite map_app, entries_woven, L1.
  unfold examination. cbn [map]. rewrite map_map. reflexivity.
Qed.
Lemma conclude_shape : forall sv its db unix rnds vars its' runs (html : option examination_result -> build_option),
    (forall er, report_targets (html er) = its) -> (forall er, report_result (html er) = er) ->
    tailing its (conclude_aloud sv wd (examine_aloud tord rsrt db create drop query unix rnds vars its') runs output html).
Proof.
  intros sv its db unix rnds vars its' runs html H1 H2 w d w' r E. unfold conclude_aloud in E. unfold nthen at 1 in E.
  assert (K : forall w d w' er, (if runs then nthen (examine_aloud tord rsrt db create drop query unix rnds vars its') (fun er => quiet (give (Ok (Some er)))) else quiet (give (Ok None))) w = (d, w', er) ->
    exists ss dl, d = examination sact ss dl /\ in_turn ss /\ match er with Ok (Some e) => ss <> [] /\ lists_results e dl | Ok None => ss = [] | _ => True end).
  { clear E w d w' r. intros w d w' er E. destruct runs.
    - unfold nthen in E. destruct (examine_aloud tord rsrt db create drop query unix rnds vars its' w) as [[d1 w1] r1] eqn:E1. destruct (examine_aloud_shape _ _ _ _ _ _ _ _ _ E1) as (ss & dl & K0 & K1 & -> & K2).
      exists ss, dl. destruct r1 as [x|m|]; cbn in E; injection E as <- _ <-; [|auto|auto]. rewrite app_nil_r. auto.
    - cbn in E. injection E as <- _ <-. exists [], []. split; [reflexivity|]. split; [now left|reflexivity]. }
  set (first := if runs then _ else _) in *. clearbody first. destruct (first w) as [[d1 w1] r1] eqn:E1. apply K in E1 as (ss & dl & -> & HT & L).
  destruct r1 as [er|m|]; [|injection E as <- _ <-; exists [], ss, dl, [], []; cbn; rewrite app_nil_r; repeat apply conj; auto; now left|injection E as <- _ <-; exists [], ss, dl, [], []; cbn; rewrite app_nil_r; repeat apply conj; auto; now left].
  unfold tail_shape, end_lines, written. destruct output as [|c o].
  - cbn in E. injection E as <- _ <-. exists [], ss, dl, [], []. cbn. repeat apply conj; auto.
  - unfold nthen, quiet, say in E. destruct (on_write sv w1 (c :: o) (html er)) as [w2 [m|]]; injection E as <- _ <-.
    + exists [], ss, dl, [Did (AWrite (c :: o) (html er))], []. cbn. repeat apply conj; auto. right. exists (html er). rewrite H1, H2. repeat apply conj; auto.
    + exists [], ss, dl, [Did (AWrite (c :: o) (html er))], []. cbn [map app]. split; [|repeat apply conj; auto].
      * rewrite app_nil_r. f_equal. unfold output_lines. destruct (logged_output wd (c :: o)); reflexivity.
      * right. exists (html er). rewrite H1, H2. repeat apply conj; auto.
Qed.
Lemma shaped_connected : forall sv c p, shaped p -> shaped (connected_aloud sv c p).
Proof.
  intros sv c p H w d w' r E. unfold connected_aloud in E.
  assert (CO : calm (Did (AOpen c))) by (split; [intros s; apply no_open|discriminate]). assert (CC : calm (Did AClose)) by (split; [intros s; apply no_close|discriminate]).
  destruct (on_open sv w c) as [w1 [m|]].
  - injection E as <- _ <-. left. split; [auto|reflexivity].
  - destruct (p w1) as [[d1 w2] r1] eqn:E1. injection E as <- _ <-. destruct (H _ _ _ _ E1) as [[C1 C2]|(pre & its & tls & d' & -> & C1 & C2 & (mid & ss & dl & wr & post & -> & C3 & C4 & [CT C5]))].
    + left. split; [constructor; [exact CO|apply Forall_app; auto]|exact C2].
    + right. exists (Did (AOpen c) :: pre), its, tls, (mid ++ examination sact ss dl ++ wr ++ map (Said Info) (end_lines r1) ++ post ++ [Did AClose]).
      split; [cbn [app]; now rewrite <- !app_assoc|]. split; [auto|]. split; [exact C2|]. exists mid, ss, dl, wr, (post ++ [Did AClose]). repeat apply conj; auto. apply Forall_app; auto.
Qed.
(** *** What the shape says *)
Lemma shape_told : forall d r, cmd_shape d r -> told_in_step sact (end_lines r) d.
Proof.
  intros d r [[C1 C2]|(pre & its & tls & d' & -> & C1 & C2 & (mid & ss & dl & wr & post & -> & C3 & C4 & [CT C5]))].
  - rewrite C2. pose proof (told_parts sact d [] [] [] [] [] (or_introl eq_refl) (calm_steps _ C1) (Forall_nil _) (Forall_nil _)) as K. cbn in K. now rewrite app_nil_r in K.
  - rewrite !app_assoc. rewrite <- (app_assoc pre). rewrite <- !(app_assoc (pre ++ _)), <- !app_assoc. rewrite app_assoc, (app_assoc (pre ++ _)). apply told_parts.
    + exact CT.
    + apply calm_steps. repeat (apply Forall_app; split); auto. apply calm_lines.
    + destruct C5 as [->|(b & -> & _)]; constructor; [|constructor]. intros s. apply no_write.
    + now apply calm_steps.
Qed.
Lemma exam_no_write : forall ss dl p b, ~ In (Did (AWrite p b)) (examination sact ss dl).
Proof.
  intros ss dl p b H. destruct ss as [|s ss]; [exact H|]. destruct H as [H|H]; [discriminate|]. apply in_app_or in H as [H|H].
  - unfold weave in H. apply in_flat_map in H as (x & _ & [H|[H|[]]]); [discriminate|]. injection H as H. symmetry in H. now apply no_write in H.
  - apply in_map_iff in H as (t & H & _). discriminate.
Qed.
End Commands.

(** ** The commands *)
Section Final.
Context {W : Type} (create drop : gostring -> index_target -> act) (query : act).
Notation sact := (act_of create drop query).
Context (no_write : forall p b s, AWrite p b <> sact s) (no_close : forall s, AClose <> sact s).
Lemma end_lines_told : forall wd output r, report_told wd output r (end_lines wd output r).
Proof.
  intros wd output [u|m|]; try reflexivity. unfold report_told, end_lines. destruct output as [|c o]; [reflexivity|]. destruct wd as [w|]; [|reflexivity].
  cbn [logged_output]. exists (path_join [w; c :: o]). split; [reflexivity|]. intros dir file cwd A1 A2 N1 N2.
  destruct (PathsProperties.logged_path_names_file w (c :: o) dir file A1 A2 N1 N2) as (p & E & K). cbn [logged_output] in E. injection E as <-. apply K.
Qed.
Lemma shape_after : forall wd output d r p b, cmd_shape create drop query wd output d r -> In (AWrite p b) (acts d) -> report_logged sact p b d.
Proof.
  intros wd output d r p b HS HI. apply in_acts in HI.
  assert (NC : forall l, Forall (calm create drop query) l -> ~ In (Did (AWrite p b)) l) by (intros l H K; rewrite Forall_forall in H; destruct (H _ K) as [_ H']; now apply (H' p b)).
  assert (NS : forall l a s, Forall (calm create drop query) l -> In (Did a) l -> a <> sact s) by (intros l a s H K; rewrite Forall_forall in H; destruct (H _ K) as [H' _]; exact (H' s)).
  destruct HS as [[C1 C2]|(pre & its & tls & d' & -> & C1 & C2 & (mid & ss & dl & wr & post & -> & C3 & C4 & [CT C5]))]; [now apply NC in C1|].
  apply in_app_or in HI as [HI|HI]; [now apply NC in C1|]. apply in_app_or in HI as [HI|HI]; [apply in_map_iff in HI as (? & HI & _); discriminate|].
  apply in_app_or in HI as [HI|HI]; [now apply NC in C3|]. apply in_app_or in HI as [HI|HI]; [apply exam_no_write in HI; [destruct HI|exact no_write]|].
  apply in_app_or in HI as [HI|HI]; [|apply in_app_or in HI as [HI|HI]; [apply in_map_iff in HI as (? & HI & _); discriminate|now apply NC in C4]].
  destruct C5 as [->|(b' & -> & D1 & D2)]; [destruct HI|]. destruct HI as [HI|[]]. injection HI as <- <-.
  exists pre, tls, mid, ss, (match ss with [] => [] | _ => dl end), ([Did (AWrite output b')] ++ map (Said Info) (end_lines wd output r) ++ post).
  split; [|split; [|split; [|split]]].
  - unfold examination, announced. destruct ss as [|s ss]; [reflexivity|]. cbn [map app]. rewrite <- !app_assoc. reflexivity.
  - now left.
  - intros a s K. apply in_app_or in K as [K|K]; [now apply (NS _ _ s C1)|]. apply in_app_or in K as [K|K]; [now apply (NS _ _ s C3)|]. cbn [app] in K; destruct K as [K|K]; [injection K as <-; apply no_write|].
    apply in_app_or in K as [K|K]; [apply in_map_iff in K as (? & K & _); discriminate|now apply (NS _ _ s C4)].
  - now rewrite D1.
  - destruct (report_result b') as [er|]; [|now subst ss]. destruct D2 as [D2 D3]. split; [exact D2|]. now destruct ss.
Qed.
Lemma screen_levels : forall (d : list (entry act)), at_level Error d = [] -> screen false d = at_level Info d.
Proof.
  induction d as [|[l t|a] d IH]; intros H; [reflexivity| |exact (IH H)]. unfold screen, at_level in *. cbn in *. destruct l; cbn in *; [now apply IH|f_equal; now apply IH|discriminate].
Qed.
Lemma screen_app : forall v (a b : list (entry act)), screen v (a ++ b) = screen v a ++ screen v b.
Proof. intros. unfold screen. now rewrite said_app, filter_app, map_app. Qed.
Lemma process_seen : forall (p : @noisy W unit) detail verbose mock wd output w,
    (forall d w' r, p w = (d, w', r) -> told_in_step sact (end_lines wd output r) d) ->
    let '(d, _, e) := process detail verbose mock p w in
    seen sact mock wd output (if verbose then detail else fun m => m) (snd (p w)) d e.
Proof.
  intros p detail verbose mock wd output w H. unfold process. destruct (p w) as [[d w'] r]. specialize (H _ _ _ eq_refl) as ((before & steps & after & H1 & HT & H2 & H3) & _ & H4).
  pose proof (screen_levels d H4) as HS. rewrite H3 in HS. cbn [snd].
  assert (F : acts (if mock then [Said Info (lit "NOTE: Using mock")] else @nil (entry act)) = [] /\ screen false (if mock then [Said Info (lit "NOTE: Using mock")] else @nil (entry act)) = if mock then [of_string "NOTE: Using mock"] else []) by (destruct mock; split; reflexivity).
  destruct F as [F1 F2].
  destruct r as [u|m|].
  - exists before, steps, after, (end_lines wd output (Ok u)), []. rewrite acts_app, F1, screen_app, F2, HS. repeat apply conj; auto; [|apply end_lines_told]. now rewrite app_nil_r.
  - exists before, steps, after, [], [if verbose then detail m else m]. rewrite !acts_app, F1, !screen_app, F2, HS. repeat apply conj; auto; [now rewrite app_nil_r| |reflexivity|now destruct verbose].
    cbn [app end_lines]. rewrite app_nil_r. now rewrite <- app_assoc.
  - exists before, steps, after, [], []. rewrite acts_app, F1, screen_app, F2, HS. repeat apply conj; auto. reflexivity.
Qed.
End Final.

(** *** MySQL *)
Definition my_step (query : gostring) : step -> act :=
  act_of (fun n it => AExec (mysql_create_sql n it)) (fun n it => AExec (mysql_drop_sql n it)) (AExec query).
Definition pg_step (query : gostring) : step -> act :=
  act_of (fun n it => AExec (pg_create_sql n it)) (fun n it => AExec (pg_drop_sql n it)) (AExec query).
Definition hasura_step (query : gostring) (v : option (list (gostring * jv))) : step -> act :=
  act_of (fun n it => APost HasuraProgram.query_path (HasuraProgram.run_sql_json {| Hasura.rs_sql := pg_create_sql n it; Hasura.rs_read_only := None |}))
         (fun n it => APost HasuraProgram.query_path (HasuraProgram.run_sql_json {| Hasura.rs_sql := pg_drop_sql n it; Hasura.rs_read_only := None |}))
         (APost HasuraProgram.graphql_path (HasuraProgram.gql_json query v)).
Ltac calming := repeat first
  [ apply calm_give | apply calm_say | apply calm_of_quiet | apply calm_qgive
  | apply calm_select; intros ? [|? ?|? ?]; discriminate | apply calm_qthen; [|intros ?] | apply calm_then; [|intros ?] ].
Section Runs.
Context {W : Type} (tord : list (gostring * list index_result) -> list (gostring * list index_result)) (rsrt : list index_result -> list index_result)
  (tord_ok : forall l, Permutation (tord l) l) (rsrt_ok : is_sort faster rsrt)
  (fold : rune -> rune) (so : list gostring -> list gostring)
  (ord : order gostring) (ordf : order ifield) (srt : list index_target_table -> list index_target_table)
  (unix : N) (rnds : nat -> N) (wd : option gostring) (runs : bool) (texts : list gostring) (query output : gostring).
Lemma mysql_shaped : forall (sv : world W) low parse env,
    shaped (fun n it => AExec (mysql_create_sql n it)) (fun n it => AExec (mysql_drop_sql n it)) (AExec query) wd output
      (mysql_aloud tord rsrt fold so ord ordf srt unix rnds wd runs texts query output sv low parse env).
Proof.
  intros sv low parse env. unfold mysql_aloud. apply shaped_then; [calming|]. intros c. apply shaped_connected; [intros ? [|? ?|? ?]; discriminate|intros [|? ?|? ?]; discriminate|].
  unfold mysql_cmd_aloud. apply shaped_then; [calming|]. intros vars. apply shaped_then; [unfold mysql_explain; calming|]. intros plan. apply shaped_then.
  - unfold mysql_suggest_aloud. apply calm_then; [calming|]. intros [|root rest]; [calming|]. unfold mysql_ask_columns, mysql_ask_indexes, schema_lines. calming.
  - intros its. apply shaped_targets. apply conclude_shape; [exact tord_ok|exact rsrt_ok|reflexivity|reflexivity].
Qed.
Lemma pg_shaped : forall (sv : world W) norm parse env,
    shaped (fun n it => AExec (pg_create_sql n it)) (fun n it => AExec (pg_drop_sql n it)) (AExec query) wd output
      (pg_aloud tord rsrt fold so ord ordf srt unix rnds wd runs texts query output sv norm parse env).
Proof.
  intros sv norm parse env. unfold pg_aloud. apply shaped_then; [calming|]. intros c. apply shaped_connected; [intros ? [|? ?|? ?]; discriminate|intros [|? ?|? ?]; discriminate|].
  unfold pg_cmd_aloud. apply shaped_then; [calming|]. intros vars. apply shaped_then; [unfold pg_explain; calming|]. intros plan. apply shaped_then.
  - unfold pg_suggest_aloud. apply calm_then; [calming|]. intros [|root [|? ?]]; [calming| |calming]. unfold pg_ask_columns, pg_ask_indexes, schema_lines. calming.
  - intros its. apply shaped_targets. apply conclude_shape; [exact tord_ok|exact rsrt_ok| |reflexivity]. intros er. now destruct its.
Qed.
Lemma hasura_cmd_shaped : forall (hv : HasuraProgram.hworld W) unmarshal kfold norm parse scan variables v,
    shaped (fun n it => APost HasuraProgram.query_path (HasuraProgram.run_sql_json {| Hasura.rs_sql := pg_create_sql n it; Hasura.rs_read_only := None |}))
      (fun n it => APost HasuraProgram.query_path (HasuraProgram.run_sql_json {| Hasura.rs_sql := pg_drop_sql n it; Hasura.rs_read_only := None |}))
      (APost HasuraProgram.graphql_path (HasuraProgram.gql_json query v)) wd output
      (hasura_cmd_aloud tord rsrt fold so ord ordf srt unix rnds wd runs texts query output hv unmarshal kfold norm parse scan variables v).
Proof.
  intros hv unmarshal kfold norm parse scan variables v. unfold hasura_cmd_aloud. apply shaped_then.
  { unfold HasuraProgram.explain_gql. apply calm_of_quiet, calm_qthen; [|intros ?; calming]. apply calm_post. intros [|? ?|? ?]; discriminate. }
  assert (F : forall A (x : outcome unit) (K : x <> Ok tt), shaped (fun n it => APost HasuraProgram.query_path (HasuraProgram.run_sql_json {| Hasura.rs_sql := pg_create_sql n it; Hasura.rs_read_only := None |}))
      (fun n it => APost HasuraProgram.query_path (HasuraProgram.run_sql_json {| Hasura.rs_sql := pg_drop_sql n it; Hasura.rs_read_only := None |}))
      (APost HasuraProgram.graphql_path (HasuraProgram.gql_json query v)) wd output (quiet (give (W := A) x))).
  { intros A x K. apply shaped_fail; [calming|]. intros w d w' r E. now injection E as _ _ <-. }
  intros [|[r|] [|? ?]]; try (apply F; discriminate). apply shaped_then; [calming|]. intros plan. apply shaped_then.
  - unfold hasura_suggest_aloud. apply calm_then; [calming|]. intros [|root [|? ?]]; [calming| |calming]. unfold HasuraProgram.ask_columns, HasuraProgram.ask_indexes, schema_lines.
    calming; apply calm_post; intros [|? ?|? ?]; discriminate.
  - intros its. apply shaped_targets. apply tailing_then; [calming|]. intros vars. apply conclude_shape; [exact tord_ok|exact rsrt_ok|reflexivity|reflexivity].
Qed.
(** the variables as they are read *)
Definition variables_of (float : Q -> option Q) (unmarshal : gostring -> option jv) (variables : gostring) : option (list (gostring * jv)) :=
  match HasuraProgram.parse_variables float unmarshal variables with Ok v => v | _ => None end.
Lemma hasura_shaped : forall (hv : HasuraProgram.hworld W) unmarshal kfold norm parse scan variables float parse_url env,
    shaped (fun n it => APost HasuraProgram.query_path (HasuraProgram.run_sql_json {| Hasura.rs_sql := pg_create_sql n it; Hasura.rs_read_only := None |}))
      (fun n it => APost HasuraProgram.query_path (HasuraProgram.run_sql_json {| Hasura.rs_sql := pg_drop_sql n it; Hasura.rs_read_only := None |}))
      (APost HasuraProgram.graphql_path (HasuraProgram.gql_json query (variables_of float unmarshal variables))) wd output
      (hasura_aloud tord rsrt fold so ord ordf srt unix rnds wd runs texts query output hv unmarshal kfold norm parse scan variables float parse_url env).
Proof.
  intros. unfold hasura_aloud, variables_of. destruct (HasuraProgram.parse_variables float unmarshal variables) as [v|m|].
  - intros w d w' r E. assert (K : forall A B (x : A) (f : A -> @noisy W B), nthen (quiet (give (Ok x))) f w = f x w) by (intros A B x f; unfold nthen; cbn; destruct (f x w) as [[? ?] ?]; reflexivity).
    rewrite K in E. clear K. revert w d w' r E. apply shaped_then; [calming|]. intros _. apply hasura_cmd_shaped.
  - intros w d w' r E. cbn in E. injection E as <- _ <-. left. split; [constructor|reflexivity].
  - intros w d w' r E. cbn in E. injection E as <- _ <-. left. split; [constructor|reflexivity].
Qed.

(** ** C126 *)
(** Of a run of the MySQL command, the lines that are always shown are the announcements of
    its examination, in order, and at last where the report is; every statement of the
    examination stands right behind its announcement. *)
Theorem mysql_told : forall (sv : world W) low parse env w,
    let '(d, w', r) := mysql_aloud tord rsrt fold so ord ordf srt unix rnds wd runs texts query output sv low parse env w in
    (acts d, w', r) = mysql_main sv fold so ord ordf srt unix rnds runs texts query output low parse env w /\
    exists lines, report_told wd output r lines /\ told_in_step (my_step query) lines d.
Proof.
  intros sv low parse env w. pose proof (mysql_shaped sv low parse env w) as H. pose proof (mysql_hush tord rsrt fold so ord ordf srt unix rnds wd runs texts query output sv low parse env w) as HH.
  destruct (mysql_aloud _ _ _ _ _ _ _ _ _ _ _ _ _ _ _ _ _ _ w) as [[d w'] r]. split; [exact HH|]. exists (end_lines wd output r). split; [apply end_lines_told|].
  apply shape_told; [intros ? ? [|? ?|? ?]; discriminate|]. exact (H _ _ _ eq_refl).
Qed.
Theorem pg_told : forall (sv : world W) norm parse env w,
    let '(d, w', r) := pg_aloud tord rsrt fold so ord ordf srt unix rnds wd runs texts query output sv norm parse env w in
    (acts d, w', r) = pg_main sv fold so ord ordf srt unix rnds runs texts query output norm parse env w /\
    exists lines, report_told wd output r lines /\ told_in_step (pg_step query) lines d.
Proof.
  intros sv norm parse env w. pose proof (pg_shaped sv norm parse env w) as H. pose proof (pg_hush tord rsrt fold so ord ordf srt unix rnds wd runs texts query output sv norm parse env w) as HH.
  destruct (pg_aloud _ _ _ _ _ _ _ _ _ _ _ _ _ _ _ _ _ _ w) as [[d w'] r]. split; [exact HH|]. exists (end_lines wd output r). split; [apply end_lines_told|].
  apply shape_told; [intros ? ? [|? ?|? ?]; discriminate|]. exact (H _ _ _ eq_refl).
Qed.
Theorem hasura_told : forall (hv : HasuraProgram.hworld W) unmarshal kfold norm parse scan variables float parse_url env w,
    let '(d, w', r) := hasura_aloud tord rsrt fold so ord ordf srt unix rnds wd runs texts query output hv unmarshal kfold norm parse scan variables float parse_url env w in
    (acts d, w', r) = HasuraProgram.hasura_main hv unmarshal kfold fold so ord ordf srt unix rnds norm parse scan float parse_url env runs texts query variables output w /\
    exists lines, report_told wd output r lines /\ told_in_step (hasura_step query (variables_of float unmarshal variables)) lines d.
Proof.
  intros hv unmarshal kfold norm parse scan variables float parse_url env w. pose proof (hasura_shaped hv unmarshal kfold norm parse scan variables float parse_url env w) as H.
  pose proof (hasura_hush tord rsrt fold so ord ordf srt unix rnds wd runs texts query output hv unmarshal kfold norm parse scan variables float parse_url env w) as HH.
  destruct (hasura_aloud _ _ _ _ _ _ _ _ _ _ _ _ _ _ _ _ _ _ _ _ _ _ _ _ w) as [[d w'] r]. split; [exact HH|]. exists (end_lines wd output r). split; [apply end_lines_told|].
  apply shape_told; [intros ? ? [|? ?|? ?]; discriminate|]. exact (H _ _ _ eq_refl).
Qed.

(** ** C127 *)
(** Whatever report is written, the log has its suggestions in front of the examination and
    its results behind it. *)
Theorem mysql_logged : forall (sv : world W) low parse env w p b,
    let '(d, w', r) := mysql_aloud tord rsrt fold so ord ordf srt unix rnds wd runs texts query output sv low parse env w in
    In (AWrite p b) (acts d) -> report_logged (my_step query) p b d.
Proof.
  intros sv low parse env w p b. pose proof (mysql_shaped sv low parse env w) as H.
  destruct (mysql_aloud _ _ _ _ _ _ _ _ _ _ _ _ _ _ _ _ _ _ w) as [[d w'] r]. intros K. eapply shape_after; [intros ? ? [|? ?|? ?]; discriminate|exact (H _ _ _ eq_refl)|exact K].
Qed.
Theorem pg_logged : forall (sv : world W) norm parse env w p b,
    let '(d, w', r) := pg_aloud tord rsrt fold so ord ordf srt unix rnds wd runs texts query output sv norm parse env w in
    In (AWrite p b) (acts d) -> report_logged (pg_step query) p b d.
Proof.
  intros sv norm parse env w p b. pose proof (pg_shaped sv norm parse env w) as H.
  destruct (pg_aloud _ _ _ _ _ _ _ _ _ _ _ _ _ _ _ _ _ _ w) as [[d w'] r]. intros K. eapply shape_after; [intros ? ? [|? ?|? ?]; discriminate|exact (H _ _ _ eq_refl)|exact K].
Qed.
Theorem hasura_logged : forall (hv : HasuraProgram.hworld W) unmarshal kfold norm parse scan variables float parse_url env w p b,
    let '(d, w', r) := hasura_aloud tord rsrt fold so ord ordf srt unix rnds wd runs texts query output hv unmarshal kfold norm parse scan variables float parse_url env w in
    In (AWrite p b) (acts d) -> report_logged (hasura_step query (variables_of float unmarshal variables)) p b d.
Proof.
  intros hv unmarshal kfold norm parse scan variables float parse_url env w p b. pose proof (hasura_shaped hv unmarshal kfold norm parse scan variables float parse_url env w) as H.
  destruct (hasura_aloud _ _ _ _ _ _ _ _ _ _ _ _ _ _ _ _ _ _ _ _ _ _ _ _ w) as [[d w'] r]. intros K. eapply shape_after; [intros ? ? [|? ?|? ?]; discriminate|exact (H _ _ _ eq_refl)|exact K].
Qed.

(** ** C128 *)
(** What a user sees of the whole process without --verbose, and its status. *)
Theorem mysql_seen : forall (sv : world W) low parse env w detail verbose mock,
    let run := mysql_aloud tord rsrt fold so ord ordf srt unix rnds wd runs texts query output sv low parse env in
    let '(d, _, e) := process detail verbose mock run w in
    seen (my_step query) mock wd output (if verbose then detail else fun m => m) (snd (mysql_main sv fold so ord ordf srt unix rnds runs texts query output low parse env w)) d e.
Proof.
  intros sv low parse env w detail verbose mock. cbv zeta. rewrite <- (mysql_hush tord rsrt fold so ord ordf srt unix rnds wd runs texts query output sv low parse env w).
  set (p := mysql_aloud _ _ _ _ _ _ _ _ _ _ _ _ _ _ _ _ _ _). pose proof (process_seen (fun n it => AExec (mysql_create_sql n it)) (fun n it => AExec (mysql_drop_sql n it)) (AExec query) p detail verbose mock wd output w) as K.
  replace (snd (hush (p w))) with (snd (p w)) by (destruct (p w) as [[? ?] ?]; reflexivity). apply K. intros d w' r E. apply shape_told; [intros ? ? [|? ?|? ?]; discriminate|]. exact (mysql_shaped sv low parse env _ _ _ _ E).
Qed.
Theorem pg_seen : forall (sv : world W) norm parse env w detail verbose mock,
    let run := pg_aloud tord rsrt fold so ord ordf srt unix rnds wd runs texts query output sv norm parse env in
    let '(d, _, e) := process detail verbose mock run w in
    seen (pg_step query) mock wd output (if verbose then detail else fun m => m) (snd (pg_main sv fold so ord ordf srt unix rnds runs texts query output norm parse env w)) d e.
Proof.
  intros sv norm parse env w detail verbose mock. cbv zeta. rewrite <- (pg_hush tord rsrt fold so ord ordf srt unix rnds wd runs texts query output sv norm parse env w).
  set (p := pg_aloud _ _ _ _ _ _ _ _ _ _ _ _ _ _ _ _ _ _). pose proof (process_seen (fun n it => AExec (pg_create_sql n it)) (fun n it => AExec (pg_drop_sql n it)) (AExec query) p detail verbose mock wd output w) as K.
  replace (snd (hush (p w))) with (snd (p w)) by (destruct (p w) as [[? ?] ?]; reflexivity). apply K. intros d w' r E. apply shape_told; [intros ? ? [|? ?|? ?]; discriminate|]. exact (pg_shaped sv norm parse env _ _ _ _ E).
Qed.
Theorem hasura_seen : forall (hv : HasuraProgram.hworld W) unmarshal kfold norm parse scan variables float parse_url env w detail verbose mock,
    let run := hasura_aloud tord rsrt fold so ord ordf srt unix rnds wd runs texts query output hv unmarshal kfold norm parse scan variables float parse_url env in
    let '(d, _, e) := process detail verbose mock run w in
    seen (hasura_step query (variables_of float unmarshal variables)) mock wd output (if verbose then detail else fun m => m)
      (snd (HasuraProgram.hasura_main hv unmarshal kfold fold so ord ordf srt unix rnds norm parse scan float parse_url env runs texts query variables output w)) d e.
Proof.
  intros hv unmarshal kfold norm parse scan variables float parse_url env w detail verbose mock. cbv zeta.
  rewrite <- (hasura_hush tord rsrt fold so ord ordf srt unix rnds wd runs texts query output hv unmarshal kfold norm parse scan variables float parse_url env w).
  set (p := hasura_aloud _ _ _ _ _ _ _ _ _ _ _ _ _ _ _ _ _ _ _ _ _ _ _ _).
  pose proof (process_seen (fun n it => APost HasuraProgram.query_path (HasuraProgram.run_sql_json {| Hasura.rs_sql := pg_create_sql n it; Hasura.rs_read_only := None |}))
      (fun n it => APost HasuraProgram.query_path (HasuraProgram.run_sql_json {| Hasura.rs_sql := pg_drop_sql n it; Hasura.rs_read_only := None |}))
      (APost HasuraProgram.graphql_path (HasuraProgram.gql_json query (variables_of float unmarshal variables))) p detail verbose mock wd output w) as K.
  replace (snd (hush (p w))) with (snd (p w)) by (destruct (p w) as [[? ?] ?]; reflexivity). apply K. intros d w' r E. apply shape_told; [intros ? ? [|? ?|? ?]; discriminate|].
  exact (hasura_shaped hv unmarshal kfold norm parse scan variables float parse_url env _ _ _ _ E).
Qed.
End Runs.
