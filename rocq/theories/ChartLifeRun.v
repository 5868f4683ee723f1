(** Lemmas for C149: all that can happen. *)
From Coq Require Import String List NArith ZArith Bool Lia Arith.
From Verif Require Import Base ChartLife ChartLifeSpec ChartLifeProofs.
Import ListNotations.
Local Open Scope nat_scope.
Local Open Scope list_scope.

Section Run.
  Context {B : Type}.
  Notation world := (@world B).

  Definition killed (x : @apex B) : apex := {| ax_elm := ax_elm x; ax_option := ax_option x; ax_destroyed := S (ax_destroyed x) |}.
  Definition of_elm (i : nat) (x : @apex B) : bool := Nat.eqb (ax_elm x) i.
  (** the constants of the modules are still there *)
  Definition kept (h : @heap B) : Prop := exists more, h = fst loaded ++ more.
  Lemma kept_reads : forall h k, kept h -> stringify 8 h (default_ref k) = Some (default_option k).
  Proof. intros h k (more & ->). apply stringify_ext. apply defaults_loaded. Qed.
  Lemma kept_app : forall h cs, kept h -> kept (h ++ cs).
  Proof. intros h cs (more & ->). exists (more ++ cs). symmetry. apply app_assoc. Qed.
  Lemma kept_start : kept (fst loaded).
  Proof. exists []. symmetry. apply app_nil_r. Qed.
  Lemma render_ok : forall height title k i bars (w : world), kept (w_heap w) ->
    exists cs v, options_of (w_heap w ++ cs) k i bars height title v /\
      render height title k i bars w = Ok {| w_heap := w_heap w ++ cs; w_charts := w_charts (destroy w i) ++ [{| ax_elm := i; ax_option := v; ax_destroyed := 0 |}];
         w_comps := update (w_comps w) i (fun c => {| co_kind := co_kind c; co_chart := Some (length (w_charts w)); co_open := co_open c |}) |}.
  Proof.
    intros height title k i bars w H. destruct (build_ok B height title k i bars (w_heap w)) as (cs & v & E & O). exists cs, v. split; [exact O|].
    unfold render. rewrite (kept_reads _ k H). clear H. unfold build in E. destruct (parse (default_option k) (w_heap w)) as [h o].
    destruct (put h o "series" (JBars bars)) as [h1| |]; cbn [obind] in E |- *; try discriminate.
    destruct (if is_plan k then _ else _) as [h2| |]; cbn [obind] in E |- *; try discriminate. unfold render_chart. cbv zeta.
    set (w2 := {| w_heap := h2; w_charts := w_charts w; w_comps := w_comps w |}).
    assert (w_heap (destroy w2 i) = h2 /\ w_comps (destroy w2 i) = w_comps w /\ w_charts (destroy w2 i) = w_charts (destroy w i) /\ length (w_charts (destroy w2 i)) = length (w_charts w)) as (-> & -> & E3 & ->).
    { unfold destroy. cbn [w2 w_comps w_charts w_heap]. destruct (nth_error (w_comps w) i) as [[k0 [c|] o0]|]; cbn [w_comps w_charts w_heap]; try rewrite update_length; auto. }
    rewrite E3. destruct (assign_option_functions k i h2 o) as [h3| |]; cbn [obind] in E |- *; try discriminate. injection E as -> ->. reflexivity.
  Qed.
  (** destroy of a component with a chart *)
  Lemma destroy_eq : forall (w : world) i c k o, nth_error (w_comps w) i = Some {| co_kind := k; co_chart := Some c; co_open := o |} ->
    destroy w i = {| w_heap := w_heap w; w_charts := update (w_charts w) c killed; w_comps := w_comps w |}.
  Proof. intros w i c k o H. unfold destroy. now rewrite H. Qed.
  Lemma filter_killed : forall i l c, length (filter (of_elm i) (update l c killed)) = length (filter (of_elm i) l).
  Proof.
    intros i l. induction l as [|x l IH]; intros [|c]; cbn [update filter]; try reflexivity.
    - change (of_elm i (killed x)) with (of_elm i x). now destruct (of_elm i x).
    - destruct (of_elm i x); cbn [length]; now rewrite IH.
  Qed.

  (** what holds for one component *)
  Definition good (w : world) (i : nat) (s : @shown B) : Prop :=
    exists c x, nth_error (w_comps w) i = Some {| co_kind := sh_kind s; co_chart := Some c; co_open := sh_open s |} /\
      nth_error (w_charts w) c = Some x /\ ax_elm x = i /\ ax_destroyed x = (if is_plan (sh_kind s) && negb (sh_open s) then 1 else 0) /\
      options_of (w_heap w) (sh_kind s) i (sh_bars s) (sh_height s) (sh_title s) (ax_option x) /\
      (forall m y, nth_error (w_charts w) m = Some y -> ax_elm y = i -> m <> c -> ax_destroyed y = 1) /\
      length (filter (of_elm i) (w_charts w)) = sh_drawn s.
  Definition inv (w : world) (l : list (@shown B)) : Prop :=
    kept (w_heap w) /\ length (w_comps w) = length l /\
    (forall i s, nth_error l i = Some s -> good w i s) /\
    (forall m y, nth_error (w_charts w) m = Some y -> ax_elm y < length l).

  (** a change of component [i] leaves the others *)
  Lemma good_other : forall w w' i j s, good w j s -> j <> i ->
    (exists cs, w_heap w' = w_heap w ++ cs) -> nth_error (w_comps w') j = nth_error (w_comps w) j ->
    (forall m y, nth_error (w_charts w') m = Some y -> ax_elm y = j -> nth_error (w_charts w) m = Some y) ->
    (forall m y, nth_error (w_charts w) m = Some y -> ax_elm y = j -> nth_error (w_charts w') m = Some y) ->
    length (filter (of_elm j) (w_charts w')) = length (filter (of_elm j) (w_charts w)) -> good w' j s.
  Proof.
    intros w w' i j s (c & x & C & X & E & D & O & U & N) NE (cs & H) C' X1 X2 F. exists c, x. split; [congruence|]. split; [now apply X2|]. split; [exact E|].
    split; [exact D|]. split; [rewrite H; now apply options_ext|]. split; [|congruence]. intros m y Y EY. apply U; [now apply X1|exact EY].
  Qed.

  (** drawing component [i], which has a chart that is alive *)
  Lemma redraw_inv : forall w l i s b, inv w l -> nth_error l i = Some s -> sh_open s = true -> is_plan (sh_kind s) = false ->
    exists w', render [] [] (sh_kind s) i b w = Ok w' /\ inv w' (update l i (fun s => {| sh_kind := sh_kind s; sh_bars := b; sh_height := sh_height s; sh_title := sh_title s; sh_drawn := S (sh_drawn s); sh_open := true |})).
  Proof.
    intros w l i s b (H & LC & G & BD) L OP PL. destruct (render_ok [] [] (sh_kind s) i b w H) as (cs & v & O & ->). eexists. split; [reflexivity|].
    destruct (G i s L) as (c & x & C & X & E & D & OO & U & N). rewrite (destroy_eq w i c _ _ C). cbn [w_charts].
    assert (c < length (w_charts w)) as LT by (apply nth_error_Some; congruence).
    assert (i < length l) as LI by (apply nth_error_Some; congruence).
    split; [cbn [w_heap]; apply kept_app; exact H|]. split; [cbn [w_comps]; now rewrite !update_length|]. split.
    - intros j s' L'. rewrite update_nth in L'. destruct (Nat.eqb_spec j i) as [-> | NE].
      + rewrite L in L'. injection L' as <-. exists (length (w_charts w)). eexists. cbn [w_comps w_charts w_heap sh_kind sh_open sh_bars sh_height sh_title sh_drawn].
        split; [rewrite update_nth, Nat.eqb_refl, C; cbn [option_map co_kind co_open]; now rewrite OP|].
        split; [rewrite nth_error_app2 by (rewrite update_length; lia); rewrite update_length, Nat.sub_diag; reflexivity|].
        split; [reflexivity|]. split; [cbn [ax_destroyed]; now rewrite PL|]. split; [clear - O PL; unfold options_of in *; destruct (sh_kind s); try discriminate; exact O|]. split.
        * intros m y Y EY NM. destruct (Nat.lt_ge_cases m (length (w_charts w))) as [LM|LM].
          -- rewrite nth_error_app1 in Y by (now rewrite update_length). rewrite update_nth in Y. destruct (Nat.eqb_spec m c) as [-> | NC].
             ++ rewrite X in Y. injection Y as <-. cbn [killed ax_destroyed]. rewrite D, PL. reflexivity.
             ++ apply (U m y Y EY NC).
          -- assert (nth_error (update (w_charts w) c killed ++ [{| ax_elm := i; ax_option := v; ax_destroyed := 0 |}]) m = None) as Z; [|congruence].
             apply nth_error_None. rewrite app_length, update_length. cbn [length]. lia.
        * rewrite filter_app, app_length, filter_killed, N. unfold of_elm. cbn [filter ax_elm]. rewrite Nat.eqb_refl. cbn [length]. lia.
      + apply (good_other w _ i j s' (G j s' L') NE).
        * exists cs. reflexivity.
        * cbn [w_comps]. rewrite update_nth. destruct (Nat.eqb_spec j i); [congruence|reflexivity].
        * cbn [w_charts]. intros m y Y EY. destruct (Nat.lt_ge_cases m (length (w_charts w))) as [LM|LM].
          -- rewrite nth_error_app1 in Y by (now rewrite update_length). rewrite update_nth in Y. destruct (Nat.eqb_spec m c) as [-> | NC]; [|exact Y].
             rewrite X in Y. injection Y as <-. cbn [killed ax_elm] in EY. congruence.
          -- rewrite nth_error_app2 in Y by (rewrite update_length; lia). rewrite update_length in Y. destruct (m - length (w_charts w)) as [|d]; cbn [nth_error] in Y.
             ++ injection Y as <-. cbn [ax_elm] in EY. congruence.
             ++ destruct d; discriminate.
        * cbn [w_charts]. intros m y Y EY. apply nth_ext. rewrite update_nth. destruct (Nat.eqb_spec m c) as [-> | NC]; [|exact Y]. congruence.
        * cbn [w_charts]. rewrite filter_app, app_length, filter_killed. unfold of_elm at 2. cbn [filter ax_elm]. destruct (Nat.eqb_spec i j); [congruence|]. cbn [length]. lia.
    - cbn [w_charts]. intros m y Y. rewrite update_length. destruct (Nat.lt_ge_cases m (length (w_charts w))) as [LM|LM].
      + rewrite nth_error_app1 in Y by (now rewrite update_length). rewrite update_nth in Y. destruct (Nat.eqb_spec m c) as [-> | NC]; [|now apply (BD m)].
        rewrite X in Y. injection Y as <-. cbn [killed ax_elm]. now apply (BD c).
      + rewrite nth_error_app2 in Y by (rewrite update_length; lia). rewrite update_length in Y. destruct (m - length (w_charts w)) as [|d]; cbn [nth_error] in Y.
        * injection Y as <-. exact LI.
        * destruct d; discriminate.
  Qed.

  Lemma open_inv : forall w l k b ht t, inv w l -> exists w', happen w (Open k b ht t) = Ok w' /\ inv w' (l ++ [{| sh_kind := k; sh_bars := b; sh_height := ht; sh_title := t; sh_drawn := 1; sh_open := true |}]).
  Proof.
    intros w l k b ht t (H & LC & G & BD). cbn [happen]. set (w0 := {| w_heap := w_heap w; w_charts := w_charts w; w_comps := w_comps w ++ [{| co_kind := k; co_chart := None; co_open := true |}] |}).
    destruct (render_ok ht t k (length (w_comps w)) b w0 H) as (cs & v & O & ->). eexists. split; [reflexivity|].
    assert (nth_error (w_comps w0) (length (w_comps w)) = Some {| co_kind := k; co_chart := None; co_open := true |}) as NW.
    { unfold w0. cbn [w_comps]. rewrite nth_error_app2, Nat.sub_diag by lia. reflexivity. }
    assert (destroy w0 (length (w_comps w)) = w0) as -> by (unfold destroy; now rewrite NW).
    split; [cbn [w_heap w0]; apply kept_app; exact H|]. split; [cbn [w_comps w0]; rewrite update_length, !app_length, LC; reflexivity|]. split.
    - intros j s' L'. destruct (Nat.lt_ge_cases j (length l)) as [LJ|LJ].
      + rewrite nth_error_app1 in L' by exact LJ. apply (good_other w _ (length l) j s' (G j s' L')); [lia|exists cs; reflexivity| | | |].
        * cbn [w_comps]. rewrite update_nth. destruct (Nat.eqb_spec j (length (w_comps w))); [lia|]. unfold w0. cbn [w_comps]. apply nth_error_app1. lia.
        * cbn [w_charts w0]. intros m y Y EY. destruct (Nat.lt_ge_cases m (length (w_charts w))) as [LM|LM]; [now rewrite nth_error_app1 in Y by exact LM|].
          rewrite nth_error_app2 in Y by lia. destruct (m - length (w_charts w)) as [|d]; cbn [nth_error] in Y; [injection Y as <-; cbn [ax_elm] in EY; lia|destruct d; discriminate].
        * cbn [w_charts w0]. intros m y Y EY. now apply nth_ext.
        * cbn [w_charts w0]. rewrite filter_app, app_length. unfold of_elm at 2. cbn [filter ax_elm]. destruct (Nat.eqb_spec (length (w_comps w)) j); [lia|]. cbn [length]. lia.
      + rewrite nth_error_app2 in L' by exact LJ. destruct (j - length l) as [|d] eqn:EJ; cbn [nth_error] in L'; [|destruct d; discriminate]. injection L' as <-.
        assert (j = length (w_comps w)) as -> by lia. exists (length (w_charts w)). eexists. cbn [w_comps w_charts w_heap sh_kind sh_open sh_bars sh_height sh_title sh_drawn].
        split; [rewrite update_nth, Nat.eqb_refl, NW; reflexivity|]. split; [cbn [w_charts w0]; rewrite nth_error_app2, Nat.sub_diag by lia; reflexivity|]. split; [reflexivity|].
        split; [cbn [ax_destroyed negb]; now rewrite andb_false_r|]. split; [exact O|]. split.
        * cbn [w_charts w0]. intros m y Y EY NM. destruct (Nat.lt_ge_cases m (length (w_charts w))) as [LM|LM].
          -- rewrite nth_error_app1 in Y by exact LM. apply BD in Y. lia.
          -- assert (nth_error (w_charts w ++ [{| ax_elm := length (w_comps w); ax_option := v; ax_destroyed := 0 |}]) m = None) as Z; [|congruence].
             apply nth_error_None. rewrite app_length. cbn [length]. lia.
        * cbn [w_charts w0]. rewrite filter_app, app_length. unfold of_elm at 2. cbn [filter ax_elm]. rewrite Nat.eqb_refl. cbn [length].
          assert (filter (of_elm (length (w_comps w))) (w_charts w) = []) as ->; [|reflexivity].
          destruct (filter (of_elm (length (w_comps w))) (w_charts w)) as [|y r] eqn:F; [reflexivity|]. assert (In y (filter (of_elm (length (w_comps w))) (w_charts w))) as IY by (rewrite F; now left).
          apply filter_In in IY as [IY EY]. apply In_nth_error in IY as (m & IY). apply BD in IY. unfold of_elm in EY. apply Nat.eqb_eq in EY. lia.
    - cbn [w_charts w0]. intros m y Y. rewrite app_length. cbn [length]. destruct (Nat.lt_ge_cases m (length (w_charts w))) as [LM|LM].
      + rewrite nth_error_app1 in Y by exact LM. apply BD in Y. lia.
      + rewrite nth_error_app2 in Y by lia. destruct (m - length (w_charts w)) as [|d]; cbn [nth_error] in Y; [injection Y as <-; cbn [ax_elm]; lia|destruct d; discriminate].
  Qed.

  Lemma close_inv : forall w l i s, inv w l -> nth_error l i = Some s -> exists w', happen w (Close i) = Ok w' /\ inv w' (update l i closed).
  Proof.
    intros w l i s I L. destruct I as (H & LC & G & BD). destruct (G i s L) as (c & x & C & X & E & D & OO & U & N). cbn [happen]. rewrite C. cbn [co_open co_kind].
    destruct (sh_open s) eqn:OP.
    - eexists. split; [reflexivity|].
      assert (exists f, (forall y, ax_elm (f y) = ax_elm y /\ ax_option (f y) = ax_option y) /\ ax_destroyed (f x) = (if is_plan (sh_kind s) then 1 else 0) /\
        w_charts (if is_plan (sh_kind s) then destroy w i else w) = update (w_charts w) c f /\ w_heap (if is_plan (sh_kind s) then destroy w i else w) = w_heap w /\
        w_comps (if is_plan (sh_kind s) then destroy w i else w) = w_comps w /\ (forall j, length (filter (of_elm j) (update (w_charts w) c f)) = length (filter (of_elm j) (w_charts w)))) as (f & F1 & F2 & -> & -> & -> & F3).
      { rewrite (destroy_eq w i c _ _ C). rewrite andb_false_r in D. destruct (is_plan (sh_kind s)).
        - exists killed. split; [intros y; split; reflexivity|]. split; [cbn [killed ax_destroyed]; now rewrite D|]. split; [reflexivity|]. split; [reflexivity|]. split; [reflexivity|]. intros j. apply filter_killed.
        - exists (fun y => y). assert (forall (q : list (@apex B)) m, update q m (fun y => y) = q) as ID by (intros q; induction q as [|z q IH]; intros [|m]; cbn [update]; congruence).
          rewrite ID. split; [intros y; split; reflexivity|]. split; [exact D|]. split; [reflexivity|]. split; [reflexivity|]. split; reflexivity. }
      split; [exact H|]. split; [cbn [w_comps]; now rewrite !update_length|]. split.
      + intros j s' L'. rewrite update_nth in L'. destruct (Nat.eqb_spec j i) as [-> | NE].
        * rewrite L in L'. injection L' as <-. exists c, (f x). cbn [w_comps w_charts w_heap closed sh_kind sh_open sh_bars sh_height sh_title sh_drawn negb].
          split; [rewrite update_nth, Nat.eqb_refl, C; reflexivity|]. split; [rewrite update_nth, Nat.eqb_refl, X; reflexivity|]. destruct (F1 x) as [F1a F1b].
          split; [congruence|]. split; [rewrite andb_true_r; exact F2|]. split; [rewrite F1b; exact OO|]. split; [|rewrite F3; exact N].
          intros m y Y EY NM. rewrite update_nth in Y. destruct (Nat.eqb_spec m c); [congruence|]. now apply (U m).
        * apply (good_other w _ i j s' (G j s' L') NE); cbn [w_heap w_comps w_charts].
          -- exists []. now rewrite app_nil_r.
          -- rewrite update_nth. destruct (Nat.eqb_spec j i); [congruence|reflexivity].
          -- intros m y Y EY. rewrite update_nth in Y. destruct (Nat.eqb_spec m c) as [-> | NC]; [|exact Y]. rewrite X in Y. injection Y as <-. rewrite (proj1 (F1 x)) in EY. congruence.
          -- intros m y Y EY. rewrite update_nth. destruct (Nat.eqb_spec m c) as [-> | NC]; [|exact Y]. congruence.
          -- apply F3.
      + cbn [w_charts]. intros m y Y. rewrite update_length. rewrite update_nth in Y. destruct (Nat.eqb_spec m c) as [-> | NC]; [|now apply (BD m)].
        rewrite X in Y. injection Y as <-. rewrite (proj1 (F1 x)). now apply (BD c).
    - exists w. split; [reflexivity|]. assert (update l i closed = l) as ->; [|split; [exact H|split; [exact LC|split; assumption]]].
      assert (closed s = s) as CS by (destruct s as [sk sb sh st sd so]; cbn [sh_open] in OP; now rewrite OP). clear - L CS. revert l L. induction i as [|i IH]; intros [|y l] L; try discriminate; cbn [update nth_error] in *.
      + injection L as ->. now rewrite CS.
      + f_equal. now apply IH.
  Qed.
  Lemma happens_app : forall (es es' : list (@happening B)) w, happens w (es ++ es') = do w' <- happens w es; happens w' es'.
  Proof. intros es. induction es as [|e es IH]; intros es' w; [reflexivity|]. cbn [app happens]. destruct (happen w e); cbn [obind]; [apply IH|reflexivity|reflexivity]. Qed.
  Lemma update_mid : forall A (a z : list A) s f, update (a ++ s :: z) (length a) f = a ++ f s :: z.
  Proof. intros A a z s f. change (length a) with (0 + length a). now rewrite update_app. Qed.
  Lemma nth_mid : forall A (a z : list A) s, nth_error (a ++ s :: z) (length a) = Some s.
  Proof. intros A a z s. rewrite nth_error_app2, Nat.sub_diag by lia. reflexivity. Qed.
  Lemma after_runs : forall es l, after es l -> exists w, happens (@start B) es = Ok w /\ inv w l.
  Proof.
    intros es l H. induction H as [|es l k b h t H (w & E & I)|es a s z b H (w & E & I)|es a s z H (w & E & I)|es l i b H (w & E & I) LE|es l i H (w & E & I) LE]; try (rewrite happens_app, E; cbn [obind happens]).
    - exists start. split; [reflexivity|]. split; [exact kept_start|]. split; [reflexivity|]. split; intros m y Y; [destruct m; discriminate|destruct m; discriminate Y].
    - destruct (open_inv w l k b h t I) as (w' & -> & I'). exists w'. split; [reflexivity|exact I'].
    - cbn [happen]. destruct I as (HH & LC & G & BD). destruct (G (length a) s (nth_mid _ a z s)) as (c & x & C & _). rewrite C. cbn [co_open co_kind].
      unfold drawn_again. destruct (sh_open s) eqn:OP; cbn [andb].
      + destruct (is_plan (sh_kind s)) eqn:PL; cbn [negb].
        * exists w. split; [reflexivity|]. destruct (sh_kind s); try discriminate. split; [exact HH|]. split; [exact LC|]. split; assumption.
        * destruct (redraw_inv w (a ++ s :: z) (length a) s b (conj HH (conj LC (conj G BD))) (nth_mid _ a z s) OP PL) as (w' & -> & I'). exists w'. split; [reflexivity|].
          rewrite update_mid in I'. destruct (sh_kind s); try discriminate; exact I'.
      + exists w. split; [reflexivity|]. destruct (sh_kind s); (split; [exact HH|]; split; [exact LC|]; split; assumption).
    - destruct (close_inv w _ (length a) s I (nth_mid _ a z s)) as (w' & -> & I'). exists w'. split; [reflexivity|]. now rewrite update_mid in I'.
    - cbn [happen]. destruct I as (HH & LC & G & BD). rewrite (proj2 (nth_error_None (w_comps w) i)) by lia. exists w. split; [reflexivity|]. split; [exact HH|]. split; [exact LC|]. split; assumption.
    - cbn [happen]. destruct I as (HH & LC & G & BD). rewrite (proj2 (nth_error_None (w_comps w) i)) by lia. exists w. split; [reflexivity|]. split; [exact HH|]. split; [exact LC|]. split; assumption.
  Qed.
  Lemma after_total : forall es : list (@happening B), exists l, after es l.
  Proof.
    intros es. induction es as [|e es (l & H)] using rev_ind; [exists []; constructor|].
    assert (forall i, length l <= i \/ exists a s z, l = a ++ s :: z /\ length a = i) as SP.
    { intros i. destruct (nth_error l i) as [s|] eqn:E; [right|left; now apply nth_error_None]. apply nth_error_split in E as (a & z & -> & L). eauto. }
    destruct e as [k b ht t|i b|i].
    - eexists. apply af_open. exact H.
    - destruct (SP i) as [L|(a & s & z & -> & <-)]; eexists; [apply af_redraw_none; [exact H|exact L]|apply af_redraw; exact H].
    - destruct (SP i) as [L|(a & s & z & -> & <-)]; eexists; [apply af_close_none; [exact H|exact L]|apply af_close; exact H].
  Qed.
End Run.
