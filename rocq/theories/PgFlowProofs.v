(** Positions in the scope tree of a supported statement; names of tables. *)
From Coq Require Import String List NArith Bool Lia Arith Permutation.
From Verif Require Import Base IndexText IndexBuild IndexBuildSpec IndexBuildProofs TableFields TableFieldsSpec TableFieldsProofs BuildSpec BuildProofs PgAst PgCollect PgSpec PgProofs PgTreeProofs PgRegionProofs PgWalkSpec PgWalkProofs.
From Verif Require MysqlProofs.
Import ListNotations.

Lemma occurs_within : forall e l, occurs e l -> forall id q, In (MSub id q) l -> within e q /\ exists w b o l, q = Select id w b o l.
Proof.
  apply (operand_ind (fun e => forall l, occurs e l -> forall id q, In (MSub id q) l -> within e q /\ exists w b o l, q = Select id w b o l)).
  intros e IH l H id q Hq. inversion H; subst.
  - destruct e; simpl in H0; try discriminate; try (destruct star; inversion H0; subst; destruct Hq as [Hq|[]]; discriminate);
      try (inversion H0; subst; destruct Hq as [Hq|[]]; discriminate).
    + destruct e; inversion H0; subst; destruct Hq as [Hq|[]]; discriminate.
    + destruct e; inversion H0; subst; destruct Hq as [Hq|[]]; discriminate.
    + destruct e; try (inversion H0; subst; destruct Hq; fail). destruct e; inversion H0; subst; try (destruct Hq; fail). destruct Hq as [Hq|[]]. inversion Hq; subst.
      split; [|eauto 10]. eapply within_child; [now left|]. apply within_kid. now left.
  - destruct (occurs_all_In _ _ H1 _ Hq) as (x & a & H2 & H3 & H4). destruct (IH x H2 a H3 id q H4) as [K1 K2]. split; auto.
    destruct (operands_below e x H2) as (k & Hk & Hw). eapply within_child; [exact Hk|]. eapply within_trans; eauto.
Qed.
Section Pg.
  Context (norm : gostring -> gostring) (target : gostring).
  Notation from_item := (from_item norm target).
  Notation from_items := (from_items norm target).
  Lemma from_item_within : forall f ss es ds, from_item f ss es ds ->
      (forall i, In i es -> within f (snd i)) /\
      (forall id q, In (id, q) ds -> within f q /\ (exists w b o l, q = Select id w b o l) /\
         (exists as_ lat, In (SDerived id as_ lat) ss) /\ exists sid as_ lat, within f (Aliased (Subquery sid (ParenSelect q)) as_ lat)).
  Proof.
    intros f ss es ds H. induction H.
    - split; [intros i []|intros id q []].
    - split; [intros i []|]. intros i q [E|[]]. inversion E; subst. split; [|split; [eauto 10|]].
      + eapply within_child; [now left|]. eapply within_child; [now left|]. apply within_kid. now left.
      + split; [do 2 eexists; now left|]. exists sid, as_, lateral. constructor.
    - split; [|intros id q []]. intros i Hi. apply in_map_iff in Hi. destruct Hi as (e & <- & He). now apply within_kid.
    - split; [|intros id q []]. intros i Hi. apply in_map_iff in Hi. destruct Hi as (e & <- & He). eapply within_child; [now left|]. now apply within_kid.
    - destruct IHfrom_item1 as [A1 A2], IHfrom_item2 as [B1 B2].
      assert (WL : forall m, within l m -> within (Join l r c) m) by (intros m Hm; apply within_child with (k := l); [simpl; auto|exact Hm]).
      assert (WR : forall m, within r m -> within (Join l r c) m) by (intros m Hm; apply within_child with (k := r); [simpl; auto|exact Hm]).
      split.
      + intros i Hi. rewrite !in_app_iff in Hi. destruct Hi as [Hi|[Hi|Hi]]; auto.
        match goal with X : PgSpec.join_cond _ _ c es |- _ => inversion X; subst end; [destruct Hi|]. destruct Hi as [<-|[]]. simpl.
        eapply within_child with (k := On e); [simpl; auto|]. apply within_kid. now left.
      + intros id q Hq. apply in_app_or in Hq. destruct Hq as [Hq|Hq].
        * destruct (A2 id q Hq) as (K1 & K2 & (a & la & K3) & (sid & a' & la' & K4)). split; auto. split; auto. split; [exists a, la; apply in_or_app; auto|eauto].
        * destruct (B2 id q Hq) as (K1 & K2 & (a & la & K3) & (sid & a' & la' & K4)). split; auto. split; auto. split; [exists a, la; apply in_or_app; auto|eauto].
    - destruct IHfrom_item as [A1 A2].
      assert (W : forall m, within (Join l r c) m -> within (Aliased (Join l r c) as_ lateral) m) by (intros m Hm; eapply within_child; [now left|exact Hm]).
      split; [auto|]. intros id q Hq. destruct (A2 id q Hq) as (K1 & K2 & K3 & (sid & a' & la' & K4)). eauto 10.
  Qed.
  Lemma from_item_fun : forall f ss es ds, from_item f ss es ds -> forall ss' es' ds', from_item f ss' es' ds' -> ss = ss' /\ es = es' /\ ds = ds'.
  Proof.
    intros f ss es ds H. induction H; intros ss' es' ds' H'; inversion H'; subst; auto.
    - destruct (IHfrom_item1 _ _ _ ltac:(eassumption)) as (-> & -> & ->). destruct (IHfrom_item2 _ _ _ ltac:(eassumption)) as (-> & -> & ->).
      match goal with X : PgSpec.join_cond _ _ c ?a, Y : PgSpec.join_cond _ _ c ?b |- _ => assert (a = b) by (inversion X; subst; inversion Y; congruence) end. subst. auto.
  Qed.
  Lemma from_items_fun : forall fs sss es ds, from_items fs sss es ds -> forall sss' es' ds', from_items fs sss' es' ds' -> sss = sss' /\ es = es' /\ ds = ds'.
  Proof.
    intros fs sss es ds H. induction H; intros sss' es' ds' H'; inversion H'; subst; auto.
    destruct (from_item_fun _ _ _ _ H _ _ _ ltac:(eassumption)) as (-> & -> & ->). destruct (IHfrom_items _ _ _ ltac:(eassumption)) as (-> & -> & ->). auto.
  Qed.
  Lemma from_items_within : forall fs sss es ds, from_items fs sss es ds ->
      (forall i, In i es -> exists f, In f fs /\ within f (snd i)) /\
      (forall id q, In (id, q) ds -> exists f, In f fs /\ within f q).
  Proof.
    intros fs sss es ds H. induction H; [split; [intros i []|intros id q []]|].
    destruct (from_item_within _ _ _ _ H) as [A1 A2]. destruct IHfrom_items as [B1 B2]. split.
    - intros i Hi. apply in_app_or in Hi. destruct Hi as [Hi|Hi]; [exists x; split; [now left|auto]|]. destruct (B1 i Hi) as (f & K1 & K2). exists f. split; [now right|auto].
    - intros id q Hi. apply in_app_or in Hi. destruct Hi as [Hi|Hi]; [exists x; split; [now left|apply (A2 id q Hi)]|]. destruct (B2 id q Hi) as (f & K1 & K2). exists f. split; [now right|auto].
  Qed.
  (** With derived tables in the last item only they are all among its sources. *)
  Lemma from_items_last : forall fs sss es ds, from_items fs sss es ds ->
      (forall before x after, fs = before ++ x :: after -> after <> [] -> forall sid q as_ lat, ~ within x (Aliased (Subquery sid q) as_ lat)) ->
      forall id q, In (id, q) ds -> exists as_ lat, In (SDerived id as_ lat) (last sss []).
  Proof.
    intros fs sss es ds H. induction H as [|x xs ss sss e es d ds Hx Hxs IH]; intros HL id q Hq; [destruct Hq|].
    destruct (from_item_within _ _ _ _ Hx) as [_ A2]. destruct Hxs as [|y ys ss' sss' e' es' d' ds' Hy Hys].
    - rewrite app_nil_r in Hq. simpl. destruct (A2 id q Hq) as (_ & _ & K & _). exact K.
    - change (last (ss :: ss' :: sss') []) with (last (ss' :: sss') []). apply in_app_or in Hq. destruct Hq as [Hq|Hq].
      + exfalso. destruct (A2 id q Hq) as (_ & _ & _ & (sid & a & la & K)). eapply (HL [] x (y :: ys)); [reflexivity|discriminate|exact K].
      + eapply IH; [|exact Hq]. intros before z after E. apply (HL (x :: before) z after). simpl. now rewrite E.
  Qed.
  Lemma clauses_within : forall id w xs a froms wh hv d g win o l sss es ds, from_items froms sss es ds ->
      forall i, In i (clauses xs es wh hv g o l) -> exists k, In k (children (Select id w (SelectClause (SelectExprs xs) (From a froms) wh hv d g win) o l)) /\ within k (snd i).
  Proof.
    intros id w xs a froms wh hv d g win o l sss es ds HF i Hi. set (n := Select _ _ _ _ _).
    assert (Wcl : forall k m, In k [SelectExprs xs; wh; hv; From a froms] \/ In k g -> within k m -> exists k', In k' (children n) /\ within k' m).
    { intros k m Hk Hm. exists (SelectClause (SelectExprs xs) (From a froms) wh hv d g win). split; [simpl; auto|].
      eapply within_child; [|exact Hm]. simpl. rewrite in_app_iff. simpl in Hk. tauto. }
    assert (WW : forall ty w i, In i (where_item ty w) -> within w (snd i)).
    { intros ty w0 i0 H. destruct w0; try (destruct H; fail). destruct H as [<-|[]]. apply within_kid. now left. }
    unfold clauses in Hi. rewrite !in_app_iff in Hi. destruct Hi as [Hi|[Hi|[Hi|[Hi|[Hi|[Hi|Hi]]]]]].
    - apply in_map_iff in Hi. destruct Hi as (x & <- & Hx). apply (Wcl (SelectExprs xs)); [simpl; tauto|]. eapply within_child; [exact Hx|]. destruct x; try constructor. apply within_kid. now left.
    - destruct (proj1 (from_items_within _ _ _ _ HF) i Hi) as (f & K1 & K2). apply (Wcl (From a froms)); [simpl; tauto|]. eapply within_child; [right; exact K1|auto].
    - apply (Wcl wh); [simpl; tauto|eauto].
    - apply in_map_iff in Hi. destruct Hi as (x & <- & Hx). apply (Wcl x); [auto|constructor].
    - apply (Wcl hv); [simpl; tauto|eauto].
    - destruct o; try (destruct Hi; fail). apply in_map_iff in Hi. destruct Hi as (x & <- & Hx). unfold order_exprs in Hx. apply in_flat_map in Hx. destruct Hx as (y & Hy & Hx).
      destruct y; try (destruct Hx; fail). destruct Hx as [<-|[]]. exists (OrderBy l0). split; [simpl; auto|]. eapply within_child; [exact Hy|]. apply within_kid. now left.
    - destruct l; try (destruct Hi; fail). eexists; split; [simpl; right; right; left; reflexivity|]. apply within_kid. destruct Hi as [<-|[<-|[]]]; simpl; auto.
  Qed.
  Lemma Forall2_concat_In : forall A B (P : A -> list B -> Prop) l r, Forall2 P l r -> forall x, In x (concat r) -> exists a b, In a l /\ P a b /\ In x b.
  Proof.
    intros A B P l r H. induction H; intros z Hz; [destruct Hz|]. simpl in Hz. apply in_app_or in Hz. destruct Hz as [Hz|Hz]; [exists x, y; split; [now left|auto]|].
    destruct (IHForall2 z Hz) as (a & b & K1 & K2 & K3). exists a, b. split; [now right|auto].
  Qed.
  Lemma subqueries_In : forall l id q, In (id, q) (subqueries l) -> In (MSub id q) l.
  Proof. intros l id q H. apply in_flat_map in H. destruct H as (m & Hm & H). destruct m; try (destruct H; fail). destruct H as [H|[]]. inversion H; subst. auto. Qed.
  Lemma tree_listed : forall nm n name sc, tree_of norm target nm name n sc -> late_derived n -> listed sc /\ scope_name sc = name.
  Proof.
    intros nm. apply (node_sind (fun n => forall name sc, tree_of norm target nm name n sc -> late_derived n -> listed sc /\ scope_name sc = name)).
    intros n IH name sc H HL. inversion H as [name' id w xs a froms wh hv d g win o l sss es ds fields qss qs fscs subs HF HC HQ HP HT1 HT2]; subst. clear H.
    split; [|reflexivity].
    match goal with X : late_derived ?x |- _ => set (n := x) in * end.
    assert (HSub : forall k q, In k (children n) -> within k q -> forall nm' s, tree_of norm target nm nm' q s -> listed s /\ scope_name s = nm').
    { intros k q Hk Hw nm' s HT. eapply IH; eauto. intros i w' xs' a' before x after wh' hv' d' g' win' o' l' Hin. eapply HL. eapply within_trans; [|exact Hin].
      eapply within_child; eauto. }
    assert (HF1 : forall qs ss, trees_of norm target nm qs ss -> (forall q, In q qs -> exists k, In k (children n) /\ within k (snd q)) ->
              Forall (fun s => listed s /\ exists q, In q qs /\ scope_name s = nm (fst q)) ss).
    { clear HP HT1 HT2 fscs subs. induction qs0 as [|q qs0 IHq]; intros ss HT Hin; inversion HT; subst; constructor.
      - destruct (Hin q (or_introl eq_refl)) as (k & Hk & Hw). destruct (HSub k (snd q) Hk Hw _ _ ltac:(eassumption)) as [K1 K2]. split; auto. exists q. split; [now left|auto].
      - eapply Forall_impl; [|apply IHq; [eassumption|intros q' Hq'; apply Hin; now right]]. intros s' (K1 & q' & K2 & K3). split; auto. exists q'. split; [now right|auto]. }
    assert (HA : Forall (fun s => listed s /\ exists q, In q qs /\ scope_name s = nm (fst q)) fscs).
    { apply HF1; auto. intros [i q] Hq. apply (Permutation_in _ HP) in Hq. destruct (Forall2_concat_In _ _ _ _ _ HQ _ Hq) as (it & b & K1 & (ms & K2 & ->) & K3).
      apply subqueries_In in K3. destruct (clauses_within id w xs a froms wh hv d g win o l _ _ _ HF it K1) as (k & Hk & Hw). exists k. split; [exact Hk|].
      simpl. eapply within_trans; [exact Hw|]. apply (proj1 (occurs_within _ _ K2 _ _ K3)). }
    assert (HB : Forall (fun s => listed s /\ exists q, In q ds /\ scope_name s = nm (fst q)) subs).
    { apply HF1; auto. intros [i q] Hq. destruct (proj2 (from_items_within _ _ _ _ HF) i q Hq) as (f & K1 & K2).
      exists (SelectClause (SelectExprs xs) (From a froms) wh hv d g win). split; [simpl; auto|]. apply within_child with (k := From a froms); [simpl; auto|].
      eapply within_child; [right; exact K1|exact K2]. }
    simpl. split.
    - clear - HA. induction HA as [|s ss [H _] _ IHs]; simpl; auto.
    - assert (HB' : Forall (fun s => listed s /\ In (scope_name s) (map t_name (map (as_table norm nm) (last sss [])))) subs).
      { eapply Forall_impl; [|exact HB]. intros s (K1 & [i q] & K2 & K3). split; auto. rewrite K3. simpl.
        destruct (from_items_last _ _ _ _ HF) with (id := i) (q := q) as (as_ & lat & K4); auto.
        - intros before x after E Hne. eapply (HL id w (SelectExprs xs) a before x after wh hv d g win o l); [|exact Hne]. rewrite <- E. constructor.
        - rewrite map_map. apply in_map_iff. exists (SDerived i as_ lat). split; auto. }
      clear - HB'. induction HB' as [|s ss [H1 H2] _ IHs]; simpl; auto.
  Qed.

  Lemma table_read_less : forall n (h1 h2 : gostring -> Prop) t, (forall x, h2 x -> h1 x) -> table_read norm h1 n t -> table_read norm h2 n t.
  Proof.
    intros n h1 h2 t H HT. revert h2 H. induction HT as [h1 s t a la Hn|h1 n k t H1 H2 H3 H4 IH]; intros h2 H.
    - constructor. auto.
    - eapply read_below; eauto. apply IH. intros x. specialize (H x). tauto.
  Qed.
  Lemma table_names : forall ord root, (forall l, Permutation (ord l) l) ->
      match collect_table_names norm ord root with
      | Ok (inl names) => NoDup names /\ (forall t, In t names <-> table_read norm (fun _ => False) root t) /\
          (exists id w b o l, root = Select id w b o l) /\ forall m, reached root m -> ~ unsupported_kind m /\ ~ foreign_table m
      | Ok (inr errs) => errs <> [] /\ ((exists id w b o l, root = Select id w b o l) -> exists m, reached root m /\ (unsupported_kind m \/ foreign_table m))
      | _ => False
      end.
  Proof.
    intros ord root HO. unfold collect_table_names. destruct root; try (split; [discriminate|intros (? & ? & ? & ? & ? & X); discriminate]).
    set (root := Select id root1 root2 root3 root4) in *. assert (Hn : root <> Nil) by discriminate.
    destruct (twalk norm root (mk_tc [] [] []) []) as (tc & us' & E & [_ (T & X & T1 & T2 & T3 & T4 & T5)]). rewrite E. cbn [obind].
    destruct (walk_events root) as (t & us & _ & W & _ & HU & _ & _). specialize (HU Hn). rewrite W in E.
    destruct (run _ _ t _) as [c'| |]; cbn [obind] in E; try discriminate. inversion E; subst c' us'. clear E W. simpl in T1, T2.
    destruct us as [|u us]; simpl.
    - rewrite T2. destruct X as [|x X].
      + rewrite T1. destruct (MysqlProofs.set_fold (map norm T) [] (NoDup_nil _)) as [N1 N2].
        split; [eapply Permutation_NoDup; [symmetry; apply HO|exact N1]|]. split; [|split; [unfold root; eauto 10|]].
        * intros y. transitivity (In y (map norm T)).
          { etransitivity; [split; apply Permutation_in; [apply HO|symmetry; apply HO]|]. rewrite N2. simpl. tauto. }
          split; intros Hy.
          -- destruct (T3 y Hy) as (k & [<-|[]] & _ & HR). eapply table_read_ext; [|exact HR]. intros z. split; [intros (l & [] & _)|tauto].
          -- destruct (T4 root y) as [K|K]; auto; [now left| |congruence]. eapply table_read_ext; [|exact Hy]. intros z. split; [tauto|intros (l & [] & _)].
        * intros m Hm. split; intros K; [destruct (proj2 (HU m)); auto|]. destruct (proj2 T5); auto. exists root, m. split; [now left|auto].
      + split; [discriminate|]. intros _. destruct (proj1 T5 ltac:(discriminate)) as (k & m & [<-|[]] & _ & K1 & K2). eauto.
    - split; [discriminate|]. intros _. destruct (proj1 (HU u) (or_introl eq_refl)). eauto.
  Qed.
  Lemma table_read_really : forall n (h h' : gostring -> Prop) t, with_shaped n -> (forall x, h' x -> h x) -> table_read norm h n t -> really_read norm h' n t.
  Proof.
    apply (node_sind (fun n => forall (h h' : gostring -> Prop) t, with_shaped n -> (forall x, h' x -> h x) -> table_read norm h n t -> really_read norm h' n t)).
    intros n IH h h' t HW Hh HT.
    assert (HS : forall k m, In k (children n) -> within k m -> with_shaped m).
    { intros k m Hk Hm id w b o l Hin. eapply HW. eapply within_child; [exact Hk|]. eapply within_trans; eauto. }
    assert (VC : forall x k, In k (visible x) -> In k (children x)) by (intros x k; destruct x; simpl; tauto).
    inversion HT as [? s t0 a la Hn|? ? k ? H1 H2 H3 H4]; subst.
    - apply really_here. auto.
    - assert (HB : k <> with_of n -> really_read norm h' n t).
      { intros Hk. eapply really_below; [exact H2|exact Hk|]. eapply IH; [apply VC; exact H2|constructor|eapply HS; [apply VC; exact H2|constructor]| |exact H4].
        simpl. intros x. specialize (Hh x). tauto. }
      destruct n; try (apply HB; auto; fail). destruct (HW id n1 n2 n3 n4 (within_self _)) as [[->|(ctes & -> & HC)] HN]; [apply HB; auto|].
      destruct H2 as [<-|H2]; [|apply HB; simpl; intros ->; apply (HN ctes); simpl in *; tauto].
      clear HB. inversion H4 as [|? ? k2 ? G1 G2 G3 G4]; subst. simpl in G2. destruct (HC k2 G2) as (name & q & ->).
      inversion G4 as [|? ? k3 ? F1 F2 F3 F4]; subst. destruct F2 as [<-|[]].
      destruct (in_split _ _ G2) as (before & after & ->).
      eapply really_with; [reflexivity|]. eapply IH; [left; reflexivity| | | |exact F4].
      + eapply within_child; [exact G2|]. apply within_kid. now left.
      + eapply HS; [left; reflexivity|]. eapply within_child; [exact G2|]. apply within_kid. now left.
      + simpl. intros x [Hx|(nm' & s' & Hx & ->)]; [left; left; left; auto|]. left. left. right. exists nm', s'. split; auto. apply in_or_app. auto.
  Qed.
End Pg.

(** ** A used column is mentioned by its name *)
Section Names.
  Context (db : smap table_schema) (M : gostring -> Prop).
  Definition nameR (f : rel) : Prop := forall n r, f n = Some r -> forall ci, In ci r -> snd ci = n \/ M (snd ci).
  Definition nameE (E : env) : Prop := forall k f, E k = Some f -> nameR f.
  Definition nameS (e : senv) : Prop := nameE (s_int e) /\ nameE (s_ext e).
  Definition allM (r : list (gostring * gostring)) : Prop := forall ci, In ci r -> M (snd ci).
  Definition nameU (us : list use) : Prop := forall t c ty, In (t, c, ty) us -> M c.
  Lemma base_names : forall tables, nameE (base db tables).
  Proof.
    intros tables k f H n r Hr ci Hci. unfold base in H. destruct (existsb _ tables); [|discriminate].
    destruct (mget db k) as [ts|] eqn:E; [|discriminate]. destruct (ts_cols ts) as [|c0 cs] eqn:EC; [discriminate|].
    rewrite <- EC in H. injection H as <-. destruct (str_in n (ts_cols ts)) eqn:ES; [|discriminate]. injection Hr as <-.
    destruct Hci as [<-|[]]. now left.
  Qed.
  Lemma shown_names : forall e, nameS e -> nameE (shown e).
  Proof. intros e [H _] k f Hf. unfold shown in Hf. destruct (s_as e k); [|discriminate]. eapply H; eauto. Qed.
  Lemma over_names : forall A B, nameE A -> nameE B -> nameE (over A B).
  Proof. intros A B HA HB k f Hf. unfold over in Hf. destruct (B k) eqn:E; [inversion Hf; subst; eapply HB; eauto|eapply HA; eauto]. Qed.
  Lemma with_sub_names : forall e n a o, nameS e -> nameR o -> nameS (with_sub e n a o).
  Proof.
    intros e n a o [H1 H2] Ho. split; auto. intros k f Hf. simpl in Hf. unfold upd in Hf.
    destruct (seqb k n); [inversion Hf; subst; auto|eapply H1; eauto].
  Qed.
  Lemma named_names : forall e a f, nameS e -> TableFieldsSpec.named e a = Some f -> nameR f.
  Proof.
    intros e a f [H1 H2] H. unfold TableFieldsSpec.named in H. destruct (s_as e a) as [g|]; [|discriminate].
    destruct (s_int e g) eqn:E; [inversion H; subst; eapply H1; eauto|eapply H2; eauto].
  Qed.
  Definition fcM (c : fcol) : Prop := fc_type c <> FStar -> fc_type c <> FSubquery -> M (fc_name c).
  Lemma col_means_names : forall amb e c r, nameS e -> fcM c -> col_means amb e c r -> allM r.
  Proof.
    intros amb e c r He HM H ci Hci. unfold col_means in H.
    assert (HG : M (fc_name c) -> match fc_table c with
        | [] => unqualified e (fc_name c) r /\ (amb \/ (forall r', unqualified e (fc_name c) r' -> r' = r))
        | a => exists f, TableFieldsSpec.named e a = Some f /\ f (fc_name c) = Some r
        end -> M (snd ci)).
    { clear H. intros HN H.
      assert (HS : forall E, nameE E -> some_table E (fc_name c) r -> M (snd ci)).
      { intros E HE (k & f & H1 & H2). destruct (HE k f H1 _ _ H2 ci Hci) as [->|]; auto. }
      destruct (fc_table c) as [|x a].
      - destruct H as [[H|[_ [H|(_ & _ & ->)]]] _]; [exact (HS _ (proj1 He) H)|exact (HS _ (proj2 He) H)|destruct Hci].
      - destruct H as (f & Hf & Hr). destruct (named_names _ _ _ He Hf _ _ Hr ci Hci) as [->|]; auto. }
    unfold fcM in HM. destruct (fc_type c); try (subst; destruct Hci; fail); apply HG; auto; apply HM; discriminate.
  Qed.
  Lemma cols_mean_names : forall amb e cs rs us, nameS e -> Forall fcM cs -> cols_mean amb e cs rs us -> allM rs /\ nameU us.
  Proof.
    intros amb e cs rs us He HF H. induction H as [|c cs r rs us H1 H2 IH].
    - split; [intros ci []|intros t c ty []].
    - inversion HF as [|? ? F1 F2]; subst. destruct (IH F2) as [IH1 IH2]. pose proof (col_means_names _ _ _ _ He F1 H1) as HC. split.
      + intros ci Hci. apply in_app_or in Hci. destruct Hci; auto.
      + intros t c' ty HI. apply in_app_or in HI. destruct HI as [HI|HI]; [|eapply IH2; eauto].
        unfold uses_of in HI. apply in_map_iff in HI. destruct HI as ([t0 c0] & Heq & HI). inversion Heq; subst. apply (HC _ HI).
  Qed.
  Lemma fields_mean_names : forall amb e fs outs us, nameS e -> (forall f, In f fs -> Forall fcM (f_cols f)) -> fields_mean amb e fs outs us ->
      (forall n r, In (n, r) outs -> allM r) /\ nameU us.
  Proof.
    intros amb e fs outs us He HF H. induction H as [|f fs r outs us us' H1 H2 IH].
    - split; [intros n r []|intros t c ty []].
    - destruct IH as [IH1 IH2]; [intros; apply HF; now right|]. destruct (cols_mean_names _ _ _ _ _ He (HF f (or_introl eq_refl)) H1) as [HC HU]. split.
      + intros n r' HI. destruct (field_name f) as [|x fn]; [eauto|]. destruct HI as [HI|HI]; [|eauto]. inversion HI; subst; auto.
      + intros t c ty HI. apply in_app_or in HI. destruct HI as [HI|HI]; [eapply HU|eapply IH2]; eauto.
  Qed.
  Lemma nameU_app : forall a b, nameU a -> nameU b -> nameU (a ++ b).
  Proof. intros a b HA HB t c ty HI. apply in_app_or in HI. destruct HI; [eapply HA|eapply HB]; eauto. Qed.
  Lemma means_names : forall sc, (forall c, mentions sc c -> M c) -> forall amb E o us, nameE E -> means db amb sc E o us -> nameR o /\ nameU us.
  Proof.
    induction sc as [name fields fscs tables subs IHf IHs] using scope_ind'. intros HM amb E o us HE H.
    inversion H; subst. clear H.
    match goal with HX : subs_mean _ _ _ _ _ _ _ _ |- _ => rename HX into M1 end.
    match goal with HX : fscopes_mean _ _ _ _ _ _ _ |- _ => rename HX into M2 end.
    match goal with HX : fields_mean _ _ _ _ _ |- _ => rename HX into M3 end.
    match goal with HX : output _ _ _ _ _ |- _ => rename HX into M5 end.
    set (P := fun sc => forall amb E o us, nameE E -> means db amb sc E o us -> nameR o /\ nameU us).
    assert (PF : Forall P fscs).
    { apply Forall_forall. intros s Hs. rewrite Forall_forall in IHf. intros amb' E' o' us'. apply (IHf s Hs). intros c Hc. apply HM. eapply mentions_field; eauto. }
    assert (PS : Forall P subs).
    { apply Forall_forall. intros s Hs. rewrite Forall_forall in IHs. intros amb' E' o' us'. apply (IHs s Hs). intros c Hc. apply HM. eapply mentions_sub; eauto. }
    assert (HS : forall subs, Forall P subs -> forall e e' u, nameS e -> subs_mean db amb tables E e subs e' u -> nameS e' /\ nameU u).
    { clear - HE. intros l HF. induction HF as [|s l Hs HF IH]; intros e e' u He HM; inversion HM; subst.
      - split; auto. intros t c ty [].
      - match goal with HX : means _ _ s ?E1 ?o1 ?u1 |- _ => destruct (Hs amb E1 o1 u1) as [Ho Hu]; [|exact HX|] end.
        { destruct (t_lateral t); auto. apply over_names; auto. now apply shown_names. }
        match goal with HX : subs_mean _ _ _ _ _ l _ _ |- _ => eapply IH in HX; [destruct HX|apply with_sub_names; auto] end.
        split; auto. now apply nameU_app. }
    assert (S0 : nameS (start db tables E)) by (split; [exact (base_names tables)|exact HE]).
    destruct (HS _ PS _ _ _ S0 M1) as [S1 U1].
    assert (HFS : forall vis fscs, nameE vis -> Forall P fscs -> forall e e' u, nameS e -> fscopes_mean db amb vis e fscs e' u -> nameS e' /\ nameU u).
    { clear. intros vis l Hv HF. induction HF as [|s l Hs HF IH]; intros e e' u He HM; inversion HM; subst.
      - split; auto. intros t c ty [].
      - match goal with HX : means _ _ _ _ _ _ |- _ => destruct (Hs _ _ _ _ Hv HX) as [Ho Hu] end.
        match goal with HX : fscopes_mean _ _ _ _ l _ _ |- _ => eapply IH in HX; [destruct HX|apply with_sub_names; auto] end.
        split; auto. now apply nameU_app. }
    destruct (HFS _ _ (shown_names _ S1) PF _ _ _ S1 M2) as [S2 U2].
    destruct (fields_mean_names _ _ _ _ _ S2 ltac:(intros f Hf; apply Forall_forall; intros c Hc K1 K2; apply HM; eapply mentions_here; eauto) M3) as [HO U3].
    split.
    - intros n r Hr ci Hci. specialize (M5 n). destruct (mget outs n) as [r'|] eqn:EO.
      + apply mget_In in EO. rewrite M5 in Hr. inversion Hr; subst. right. eapply HO; eauto.
      + rewrite Hr in M5. destruct M5 as [(a & Ha & HA) _]. destruct a.
        * destruct HA as (k & f & K1 & K2). exact (proj1 S2 k f K1 n r K2 ci Hci).
        * destruct HA as (f & Hf & Hfr). exact (named_names _ _ _ S2 Hf n r Hfr ci Hci).
    - apply nameU_app; auto. now apply nameU_app.
  Qed.
End Names.
Lemma target_mentioned : forall ord ordf db path sc ts x, is_order ord -> is_order ordf -> build_from_scope ord ordf db path sc = Ok ts -> In x ts ->
    forall c, In c (map fst (itt_fields x)) -> mentions sc c.
Proof.
  intros ord ordf db path sc ts x Ho Hof H Hx c Hc.
  destruct (target_origin ord ordf Ho _ _ _ _ x H Hx) as (rf & l & sch & p & HT & HG & _ & HN & HI & _).
  apply in_map_iff in Hc. destruct Hc as ([c' ty] & <- & Hc). simpl.
  apply (index_composition_sound _ _ _ _ _ Hof HN) in HI. destruct HI as (_ & _ & HI & _). apply HI in Hc.
  destruct (table_fields_sound _ _ _ _ _ Ho HT) as (o & us & HMe & HR).
  assert (H0 : nameE (mentions sc) nothing) by (intros k f X; discriminate X).
  destruct (means_names db (mentions sc) sc (fun _ h => h) _ _ _ _ H0 HMe) as [_ HU].
  destruct HR as (_ & _ & _ & HR & _). eapply (HU (itt_table x) c' ty). apply HR. exists l. auto.
Qed.

(** ** Names in the scope tree come from the statement *)
Section Origin.
  Context (norm : gostring -> gostring) (target : gostring).
  Lemma occurs_named : forall e l, occurs e l -> forall ty m, In m l -> fc_type (as_fcol norm ty m) <> FStar -> fc_type (as_fcol norm ty m) <> FSubquery ->
      exists x, within e x /\ names_column norm x (fc_name (as_fcol norm ty m)).
  Proof.
    apply (operand_ind (fun e => forall l, occurs e l -> forall ty m, In m l -> fc_type (as_fcol norm ty m) <> FStar -> fc_type (as_fcol norm ty m) <> FSubquery ->
      exists x, within e x /\ names_column norm x (fc_name (as_fcol norm ty m)))).
    intros e IH l H ty m Hm N1 N2. inversion H; subst.
    - exists e. split; [constructor|].
      destruct e; simpl in H0; try discriminate.
      all: try (destruct star; inversion H0; subst; destruct Hm as [<-|[]]; simpl in *; congruence).
      all: try (inversion H0; subst; destruct Hm as [<-|[]]; simpl in *; congruence).
      all: destruct e; try (inversion H0; subst; destruct Hm as [<-|[]]; simpl in *; congruence).
      all: try (inversion H0; subst; destruct Hm).
      destruct e; inversion H0; subst; try (destruct Hm; fail). destruct Hm as [<-|[]]; simpl in *; congruence.
    - destruct (occurs_all_In _ _ H1 _ Hm) as (x & a & K1 & K2 & K3). destruct (IH x K1 a K2 ty m K3 N1 N2) as (y & Y1 & Y2). exists y. split; auto.
      destruct (operands_below e x K1) as (k & Hk & Hw). eapply within_child; [exact Hk|]. eapply within_trans; eauto.
  Qed.
  Lemma tree_mentions : forall nm n name sc, tree_of norm target nm name n sc -> forall c, mentions sc c -> exists x, within n x /\ names_column norm x c.
  Proof.
    intros nm. apply (node_sind (fun n => forall name sc, tree_of norm target nm name n sc -> forall c, mentions sc c -> exists x, within n x /\ names_column norm x c)).
    intros n IH name sc H c HM. inversion H as [name' id w xs a froms wh hv d g win o l sss es ds fields qss qs fscs subs HF HC HQ HP HT1 HT2]; subst. clear H.
    set (n := Select id w (SelectClause (SelectExprs xs) (From a froms) wh hv d g win) o l) in *.
    assert (HSub : forall qs ss s, trees_of norm target nm qs ss -> In s ss -> exists q, In q qs /\ tree_of norm target nm (nm (fst q)) (snd q) s).
    { clear. induction qs as [|q qs IHq]; intros ss s HT Hs; inversion HT; subst; [destruct Hs|]. destruct Hs as [<-|Hs].
      - exists q. split; [now left|auto].
      - destruct (IHq _ _ ltac:(eassumption) Hs) as (q' & K1 & K2). exists q'. split; [now right|auto]. }
    assert (HIn : forall k q, In k (children n) -> within k q -> forall nm' s, tree_of norm target nm nm' q s -> mentions s c -> exists x, within n x /\ names_column norm x c).
    { intros k q Hk Hw nm' s HT Hm. destruct (IH k q Hk Hw nm' s HT c Hm) as (x & X1 & X2). exists x. split; auto. eapply within_child; [exact Hk|]. eapply within_trans; eauto. }
    inversion HM as [? ? ? ? ? f fc Hf Hfc N1 N2|? ? ? ? ? s c0 Hs Hm|? ? ? ? ? s c0 Hs Hm]; subst.
    - apply filter_In in Hf. destruct Hf as [Hf _].
      assert (HX : exists i, In i (clauses xs es wh hv g o l) /\ clause_field norm i f).
      { clear - HC Hf. induction HC; [destruct Hf|]. destruct Hf as [<-|Hf]; [exists x; split; [now left|auto]|]. destruct (IHHC Hf) as (i & K1 & K2). exists i. split; [now right|auto]. }
      destruct HX as ([[ty as_] e] & Hi & (_ & ms & HO & E)). rewrite E in Hfc. apply in_map_iff in Hfc. destruct Hfc as (m & <- & Hm).
      destruct (occurs_named _ _ HO ty m Hm N1 N2) as (x & X1 & X2). exists x. split; auto.
      destruct (clauses_within norm target id w xs a froms wh hv d g win o l _ _ _ HF _ Hi) as (k & Hk & Hw). eapply within_child; [exact Hk|]. eapply within_trans; eauto.
    - destruct (HSub _ _ _ HT1 Hs) as ([i q] & Hq & HT). apply (Permutation_in _ HP) in Hq. destruct (Forall2_concat_In _ _ _ _ _ HQ _ Hq) as (it & b & K1 & (ms & K2 & ->) & K3).
      apply subqueries_In in K3. destruct (clauses_within norm target id w xs a froms wh hv d g win o l _ _ _ HF it K1) as (k & Hk & Hw).
      eapply HIn; [exact Hk| |exact HT|exact Hm]. simpl. eapply within_trans; [exact Hw|]. apply (proj1 (occurs_within _ _ K2 _ _ K3)).
    - destruct (HSub _ _ _ HT2 Hs) as ([i q] & Hq & HT). destruct (proj2 (from_items_within norm target _ _ _ _ HF) i q Hq) as (f & K1 & K2).
      eapply HIn with (k := SelectClause (SelectExprs xs) (From a froms) wh hv d g win); [simpl; auto| |exact HT|exact Hm].
      apply within_child with (k := From a froms); [simpl; auto|]. eapply within_child; [right; exact K1|exact K2].
  Qed.
End Origin.
Section Listed.
  Context (norm : gostring -> gostring) (target : gostring).
  Lemma from_item_read : forall f ss es ds, from_item norm target f ss es ds -> forall name as_, In (STable name as_) ss ->
      f <> Nil /\ forall hidden : gostring -> Prop, ~ hidden (norm name) -> table_read norm hidden f (norm name).
  Proof.
    intros f ss es ds H. induction H; intros name0 as0 HI.
    - destruct HI as [HI|[]]. inversion HI; subst. split; [discriminate|]. intros hidden Hh. now apply read_here.
    - destruct HI as [HI|[]]. discriminate.
    - destruct HI.
    - destruct HI.
    - split; [discriminate|]. intros hidden Hh. apply in_app_or in HI. destruct HI as [HI|HI].
      + destruct (IHfrom_item1 _ _ HI) as [K1 K2]. apply read_below with (k := l); [simpl; tauto|simpl; auto|auto|]. apply K2. simpl. tauto.
      + destruct (IHfrom_item2 _ _ HI) as [K1 K2]. apply read_below with (k := r); [simpl; tauto|simpl; auto|auto|]. apply K2. simpl. tauto.
    - split; [discriminate|]. intros hidden Hh. destruct (IHfrom_item _ _ HI) as [K1 K2].
      eapply read_below; [simpl; tauto|left; reflexivity|discriminate|]. apply K2. simpl. tauto.
  Qed.
  Lemma from_items_read : forall fs sss es ds, from_items norm target fs sss es ds -> forall ss, In ss sss -> exists f es ds, In f fs /\ from_item norm target f ss es ds.
  Proof.
    intros fs sss es ds H. induction H; intros ss' Hs; [destruct Hs|]. destruct Hs as [<-|Hs]; [exists x, e, d; split; [now left|auto]|].
    destruct (IHfrom_items _ Hs) as (f & e' & d' & K1 & K2). exists f, e', d'. split; [now right|auto].
  Qed.
  Lemma select_reads : forall id xs a froms wh hv d g win o l sss es ds, from_items norm target froms sss es ds ->
      forall ss name as_, In ss sss -> In (STable name as_) ss ->
      table_read norm (fun _ => False) (Select id Nil (SelectClause xs (From a froms) wh hv d g win) o l) (norm name).
  Proof.
    intros id xs a froms wh hv d g win o l sss es ds HF ss name as_ Hs HI. destruct (from_items_read _ _ _ _ HF _ Hs) as (f & e' & d' & K1 & K2).
    destruct (from_item_read _ _ _ _ K2 _ _ HI) as [K3 K4].
    apply read_below with (k := SelectClause xs (From a froms) wh hv d g win); [simpl; tauto|simpl; auto|discriminate|].
    apply read_below with (k := From a froms); [simpl; tauto|simpl; auto|discriminate|].
    apply read_below with (k := f); [simpl; tauto|right; auto|auto|]. apply K4. simpl. tauto.
  Qed.
End Listed.
