(** Lemmas for C148. *)
From Coq Require Import String List NArith ZArith QArith Bool Lia Arith Permutation Sorted.
From Verif Require Import Base IndexBuild Pi LoadCharts Tooltip TooltipSpec Utf16 Utf16Spec.
From Verif Require Utf8Spec Utf8Proofs TooltipProperties CatalogReadProofs LoadChartsProofs.
Import ListNotations.
Local Open Scope nat_scope.
Local Open Scope list_scope.

(** ** Characters *)
Lemma units_of_two : forall x y, (x < 1024)%N -> (y < 1024)%N -> units_of (65536 + x * 1024 + y) = [(55296 + x)%N; (56320 + y)%N].
Proof.
  intros x y X Y. unfold units_of. destruct (N.ltb_spec (65536 + x * 1024 + y) 65536) as [L|L]; [lia|].
  replace (65536 + x * 1024 + y - 65536)%N with (y + x * 1024)%N by lia.
  rewrite N.div_add, N.div_small, N.mod_add, N.mod_small by lia. reflexivity.
Qed.
Lemma char_units_eq : forall c u, char_units c u -> u = units_of c.
Proof.
  intros c u [d L|d x y -> X Y].
  - unfold units_of. destruct (N.ltb_spec d 65536); [reflexivity|lia].
  - now rewrite units_of_two.
Qed.
Lemma units_of_char : forall c, (c < 1114112)%N -> char_units c (units_of c).
Proof.
  intros c L. unfold units_of. destruct (N.ltb_spec c 65536) as [H|H]; [now constructor|].
  assert ((c - 65536) mod 1024 < 1024)%N as M by (apply N.mod_lt; lia). pose proof (N.div_mod (c - 65536) 1024 ltac:(lia)) as D.
  revert M D. generalize ((c - 65536) / 1024)%N, ((c - 65536) mod 1024)%N. intros x y M D. apply cu_two; lia.
Qed.
Lemma utf16_text : forall s, proper s -> text_units s (utf16 s).
Proof. intros s P. induction P as [|c s C P IH]; cbn [utf16 flat_map]; constructor; [apply units_of_char, C|exact IH]. Qed.
Lemma text_units_eq : forall s u, text_units s u -> u = utf16 s.
Proof. intros s u H. induction H as [|c u t us C T IH]; [reflexivity|]. cbn [utf16 flat_map]. rewrite <- (char_units_eq _ _ C). now rewrite IH. Qed.
Lemma utf16_app : forall a b, utf16 (a ++ b) = utf16 a ++ utf16 b.
Proof. intros a b. unfold utf16. apply flat_map_app. Qed.
Lemma utf16_cons : forall c s, utf16 (c :: s) = units_of c ++ utf16 s.
Proof. reflexivity. Qed.
Lemma utf16_small : forall s, Forall (fun c => (c < 65536)%N) s -> utf16 s = s.
Proof.
  intros s H. induction H as [|c s C H IH]; [reflexivity|]. rewrite utf16_cons, IH. unfold units_of. destruct (N.ltb_spec c 65536); [reflexivity|lia].
Qed.
(** what the units of a character can be *)
Lemma units_cases : forall c, Utf8Spec.scalar c ->
  ((c < 65536)%N /\ units_of c = [c] /\ is_high c = false /\ is_low c = false) \/
  ((65536 <= c)%N /\ exists h l, units_of c = [h; l] /\ is_high h = true /\ is_low h = false /\ is_low l = true /\ is_high l = false /\
     (55296 <= h <= 56319)%N /\ (56320 <= l <= 57343)%N /\ (65536 + (h - 55296) * 1024 + (l - 56320))%N = c).
Proof.
  intros c [L NS]. destruct (units_of_char c L) as [d K|d x y -> X Y].
  - left. split; [exact K|]. split; [reflexivity|]. unfold is_high, is_low. split; apply andb_false_iff; rewrite !N.leb_gt; lia.
  - right. split; [lia|]. exists (55296 + x)%N, (56320 + y)%N. unfold is_high, is_low.
    split; [reflexivity|]. split; [apply andb_true_iff; rewrite !N.leb_le; lia|]. split; [apply andb_false_iff; rewrite !N.leb_gt; lia|].
    split; [apply andb_true_iff; rewrite !N.leb_le; lia|]. split; [apply andb_false_iff; rewrite !N.leb_gt; lia|]. lia.
Qed.
Lemma drawn_char : forall c r, Utf8Spec.scalar c -> drawn_text (units_of c ++ r) = c :: drawn_text r.
Proof.
  intros c r P. destruct (units_cases c P) as [(_ & -> & H & L)|(_ & h & l & -> & H & _ & L & _ & _ & _ & E)]; cbn [app drawn_text].
  - now rewrite H, L.
  - now rewrite H, L, E.
Qed.
Lemma drawn_proper : forall s r, proper s -> drawn_text (utf16 s ++ r) = s ++ drawn_text r.
Proof.
  intros s r P. induction P as [|c s C P IH]; [reflexivity|]. rewrite utf16_cons, <- app_assoc, drawn_char by exact C. rewrite IH. reflexivity.
Qed.
Lemma drawn_utf16 : forall s, proper s -> drawn_text (utf16 s) = s.
Proof. intros s P. rewrite <- (app_nil_r (utf16 s)), drawn_proper by exact P. cbn [drawn_text]. apply app_nil_r. Qed.
Lemma utf16_inj : forall a b, proper a -> proper b -> utf16 a = utf16 b -> a = b.
Proof. intros a b A B E. rewrite <- (drawn_utf16 a A), <- (drawn_utf16 b B). now rewrite E. Qed.

(** ** What is seen *)
Lemma high_range : forall u, is_high u = true <-> (55296 <= u <= 56319)%N.
Proof. intros u. unfold is_high. rewrite andb_true_iff, !N.leb_le. reflexivity. Qed.
Lemma low_range : forall u, is_low u = true <-> (56320 <= u <= 57343)%N.
Proof. intros u. unfold is_low. rewrite andb_true_iff, !N.leb_le. reflexivity. Qed.
Lemma seen_drawn : forall n u, length u <= n -> Forall (fun x => (x < 65536)%N) u -> seen u (drawn_text u).
Proof.
  induction n as [|n IH]; intros u L F.
  - destruct u; [constructor|cbn [length] in L; lia].
  - destruct u as [|h r]; [constructor|]. cbn [length] in L. inversion F as [|h' r' HH FR]; subst. cbn [drawn_text].
    destruct (is_high h) eqn:H.
    + destruct r as [|l r].
      * apply sn_other; [|constructor]. intros c x y C U E. apply high_range in H. destruct U as [c K|c a b -> A B]; cbn [app] in E; [|discriminate].
        injection E as -> _. destruct C as [_ C]. apply C. lia.
      * cbn [length] in L. inversion FR as [|l' r' LL FR']; subst. destruct (is_low l) eqn:LO.
        -- apply high_range in H. apply low_range in LO. change (h :: l :: r) with ([h; l] ++ r). apply sn_char; [split; lia| |apply IH; [lia|exact FR']].
           replace h with (55296 + (h - 55296))%N at 2 by lia. replace l with (56320 + (l - 56320))%N at 2 by lia. apply cu_two; [reflexivity|lia|lia].
        -- apply sn_other; [|apply IH; [cbn [length]; lia|exact FR]]. intros c x y C U E. apply high_range in H.
           destruct U as [c K|c a b -> A B]; cbn [app] in E.
           ++ injection E as -> _. destruct C as [_ C]. apply C. lia.
           ++ assert (l = 56320 + b)%N as EL by congruence. assert (is_low l = true) by (apply low_range; lia). congruence.
    + destruct (is_low h) eqn:LO.
      * apply sn_other; [|apply IH; [lia|exact FR]]. intros c x y C U E. apply low_range in LO. destruct U as [c K|c a b -> A B]; cbn [app] in E.
        -- injection E as -> _. destruct C as [_ C]. apply C. lia.
        -- assert (h = 55296 + a)%N by congruence. lia.
      * change (h :: r) with ([h] ++ r). apply sn_char; [split; [lia|] |now constructor|apply IH; [lia|exact FR]].
        intros K. apply not_true_iff_false in H, LO. rewrite high_range in H. rewrite low_range in LO. lia.
Qed.
Lemma seen_eq : forall u t, seen u t -> Forall (fun x => (x < 65536)%N) u -> t = drawn_text u.
Proof.
  intros u t H. induction H as [|c u us t C U H IH|u us t NO H IH]; intros F; [reflexivity| |].
  - rewrite (char_units_eq _ _ U), drawn_char by exact C. apply Forall_app in F as [_ F]. now rewrite IH.
  - inversion F as [|u' us' HU FU]; subst. cbn [drawn_text]. destruct (is_high u) eqn:HI.
    + destruct us as [|l us]; [now rewrite IH|]. destruct (is_low l) eqn:LO; [|now rewrite IH]. exfalso. apply high_range in HI. apply low_range in LO.
      apply (NO (65536 + (u - 55296) * 1024 + (l - 56320))%N [u; l] us); [split; lia| |reflexivity].
      replace u with (55296 + (u - 55296))%N at 2 by lia. replace l with (56320 + (l - 56320))%N at 2 by lia. apply cu_two; [reflexivity|lia|lia].
    + destruct (is_low u) eqn:LO; [now rewrite IH|]. exfalso. apply (NO u [u] us); [|now constructor|reflexivity]. split; [lia|].
      intros K. apply not_true_iff_false in HI, LO. rewrite high_range in HI. rewrite low_range in LO. lia.
Qed.
Lemma units_bound : forall s, proper s -> Forall (fun x => (x < 65536)%N) (utf16 s).
Proof.
  intros s P. induction P as [|c s C P IH]; [constructor|]. rewrite utf16_cons. apply Forall_app. split; [|exact IH].
  destruct (units_cases c C) as [(L & -> & _)|(_ & h & l & -> & _ & _ & _ & _ & H & K & _)]; repeat (constructor; [lia|]); constructor.
Qed.

(** ** Cutting *)
Lemma cut_drawn : forall s n r, proper s -> n < length (utf16 s) -> (forall u t, r = u :: t -> is_low u = false) ->
  exists q, cut n s q /\ drawn_text (firstn n (utf16 s) ++ r) = q ++ drawn_text r.
Proof.
  intros s n r P L NL. revert n L. induction P as [|c s C P IH]; intros n L; [cbn in L; lia|].
  assert (forall m (ks : list N), n = length (units_of c) + m -> m < length (utf16 s) -> exists q, cut n (c :: s) q /\ drawn_text (firstn n (utf16 (c :: s)) ++ r) = q ++ drawn_text r) as STEP.
  { intros m _ -> LM. destruct (IH m LM) as (q & (p & d & t & u & E & T & H) & D). exists (c :: q). split.
    - exists (c :: p), d, t, (units_of c ++ u). split; [now rewrite E|]. split; [constructor; [apply units_of_char, C|exact T]|]. rewrite app_length.
      destruct H as [[H ->] | (H & B & ->)]; [left|right]; (split; [lia|]); [reflexivity|split; [exact B|reflexivity]].
    - rewrite utf16_cons, firstn_app_2, <- app_assoc, drawn_char, D by exact C. reflexivity. }
  destruct n as [|n].
  - exists []. split; [|reflexivity]. exists [], c, s, []. split; [reflexivity|]. split; [constructor|]. left. split; reflexivity.
  - rewrite utf16_cons, app_length in L. destruct (units_cases c C) as [(B & E & _)|(B & h & l & E & H & HL & LO & _)].
    + apply (STEP n []); rewrite E in *; cbn [length] in *; lia.
    + destruct n as [|n].
      * exists [65533%N]. split.
        -- exists [], c, s, []. split; [reflexivity|]. split; [constructor|]. right. split; [reflexivity|]. split; [exact B|reflexivity].
        -- rewrite utf16_cons, E. cbn [app firstn drawn_text]. rewrite H. destruct r as [|u t]; [reflexivity|]. now rewrite (NL u t eq_refl).
      * apply (STEP n []); rewrite E in *; cbn [length] in *; lia.
Qed.
Lemma cut_unique : forall n s q q', cut n s q -> cut n s q' -> q = q'.
Proof.
  intros n s. revert n. induction s as [|c s IH]; intros n q q' (p & d & t & u & E & T & H) (p' & d' & t' & u' & E' & T' & H').
  - destruct p; discriminate.
  - assert (forall e w, char_units e w -> length w = if N.ltb e 65536 then 1 else 2) as LEN.
    { intros e w [e' B|e' x y -> X Y]; [destruct (N.ltb_spec e' 65536)|destruct (N.ltb_spec (65536 + x * 1024 + y) 65536)]; cbn [length]; lia. }
    destruct p as [|a p], p' as [|a' p']; cbn [app] in E, E'; injection E as -> ->; injection E' as <- E'.
    + inversion T; subst. inversion T'; subst. cbn [length] in H, H'. destruct H as [[H ->] | (H & B & ->)], H' as [[H' ->] | (H' & B' & ->)]; try reflexivity; lia.
    + inversion T; subst. cbn [length] in H. inversion T' as [|c1 w1 t1 v1 W1 V1]; subst. apply LEN in W1. rewrite app_length, W1 in H'.
      destruct (N.ltb_spec d 65536); destruct H as [[H ->] | (H & B & ->)], H' as [[H' ->] | (H' & B' & ->)]; try lia.
    + inversion T'; subst. cbn [length] in H'. inversion T as [|c1 w1 t1 v1 W1 V1]; subst. apply LEN in W1. rewrite app_length, W1 in H.
      destruct (N.ltb_spec a 65536); destruct H as [[H ->] | (H & B & ->)], H' as [[H' ->] | (H' & B' & ->)]; try lia.
    + inversion T as [|c1 w1 t1 v1 W1 V1]; subst. inversion T' as [|c2 w2 t2 v2 W2 V2]; subst. apply LEN in W1, W2. rewrite app_length in H, H'. rewrite <- W2 in W1.
      set (m := n - length w1). assert (cut m (p ++ d :: t) (tl q)) as A1.
      { exists p, d, t, v1. split; [reflexivity|]. split; [exact V1|]. destruct H as [[H ->] | (H & B & ->)]; [left|right]; unfold m; (split; [lia|]); [reflexivity|split; [exact B|reflexivity]]. }
      assert (cut m (p ++ d :: t) (tl q')) as A2.
      { exists p', d', t', v2. split; [exact E'|]. split; [exact V2|]. destruct H' as [[H' ->] | (H' & B & ->)]; [left|right]; unfold m; (split; [lia|]); [reflexivity|split; [exact B|reflexivity]]. }
      pose proof (IH m _ _ A1 A2) as K.
      destruct H as [[H ->] | (H & B & ->)], H' as [[H' ->] | (H' & B' & ->)]; cbn [app tl] in K |- *; now rewrite K.
Qed.

(** ** trim *)
Lemma space_small : forall c, js_space c = true -> (c < 65536)%N /\ is_high c = false /\ is_low c = false.
Proof.
  intros c H. apply TooltipProperties.js_space_white in H. unfold white in H. cbn [In] in H.
  decompose [or] H; subst; try easy; (split; [reflexivity|split; reflexivity]).
Qed.
Lemma trim_left_utf16 : forall s, proper s -> trim_left (utf16 s) = utf16 (trim_left s).
Proof.
  intros s P. induction P as [|c s C P IH]; [reflexivity|]. rewrite utf16_cons. destruct (units_cases c C) as [(B & E & _)|(B & h & l & E & H & _)]; rewrite E; cbn [app trim_left].
  - destruct (js_space c); [exact IH|]. now rewrite utf16_cons, E.
  - destruct (js_space h) eqn:J; [destruct (space_small _ J) as (_ & K & _); congruence|]. destruct (js_space c) eqn:J2; [destruct (space_small _ J2) as (K & _); lia|].
    now rewrite utf16_cons, E.
Qed.
Lemma trim_left_rev_utf16 : forall s, proper s -> rev (trim_left (rev (utf16 s))) = utf16 (rev (trim_left (rev s))).
Proof.
  intros s. induction s as [|c s IH] using rev_ind; intros P; [reflexivity|]. apply Forall_app in P as [P C]. inversion C as [|c' n CC _]; subst.
  rewrite utf16_app, rev_unit. change (utf16 [c]) with (units_of c ++ []). rewrite app_nil_r, rev_app_distr.
  destruct (units_cases c CC) as [(B & E & _)|(B & h & l & E & _ & _ & L & _)]; rewrite E; cbn [rev app trim_left].
  - destruct (js_space c); [now apply IH|]. cbn [rev]. rewrite !rev_involutive, utf16_app. unfold utf16 at 3. cbn [flat_map]. now rewrite E.
  - destruct (js_space l) eqn:J; [destruct (space_small _ J) as (_ & _ & K); congruence|]. destruct (js_space c) eqn:J2; [destruct (space_small _ J2) as (K & _); lia|].
    cbn [rev]. rewrite !rev_involutive, utf16_app, <- app_assoc. unfold utf16 at 3. cbn [flat_map app]. now rewrite E.
Qed.
Lemma proper_trim_left : forall s, proper s -> proper (trim_left s).
Proof. intros s P. destruct (TooltipProperties.trim_left_spec s) as (a & E & _). unfold proper in *. rewrite E in P. now apply Forall_app in P as [_ P]. Qed.
Lemma trim_utf16 : forall s, proper s -> trim (utf16 s) = utf16 (trim s).
Proof. intros s P. unfold trim. rewrite trim_left_utf16 by exact P. apply trim_left_rev_utf16. now apply proper_trim_left. Qed.
Lemma proper_trim : forall s, proper s -> proper (trim s).
Proof.
  intros s P. destruct (TooltipProperties.trim_spec s) as (a & b & E & _). unfold proper in *. rewrite E in P. apply Forall_app in P as [_ P]. now apply Forall_app in P as [P _].
Qed.

(** ** Order *)
Lemma js_less_sltb : forall a b, js_less a b = sltb a b.
Proof.
  induction a as [|x a IH]; intros [|y b]; try reflexivity. cbn [js_less sltb]. rewrite IH.
  destruct (N.eqb_spec x y) as [-> | NE]; [now rewrite N.ltb_irrefl|]. destruct (N.ltb_spec x y); [reflexivity|]. destruct (N.ltb_spec y x); [reflexivity|lia].
Qed.
Lemma char_before : forall c d r r', Utf8Spec.scalar c -> Utf8Spec.scalar d -> before c d -> Utf8Spec.lex_less (units_of c ++ r) (units_of d ++ r').
Proof.
  intros c d r r' C D B. unfold before in B. destruct (units_cases c C) as [(X & E & _)|(X & h & l & E & _ & _ & _ & _ & H & L & Q)];
    destruct (units_cases d D) as [(Y & E' & _)|(Y & h' & l' & E' & _ & _ & _ & _ & H' & L' & Q')]; rewrite E, E'; cbn [app];
    (destruct (N.ltb_spec c 65536); [|try lia]); (destruct (N.ltb_spec d 65536); [|try lia]); try lia.
  - now apply Utf8Spec.ll_here.
  - apply Utf8Spec.ll_here. destruct C as [_ C]. lia.
  - apply Utf8Spec.ll_here. lia.
  - destruct (N.lt_ge_cases h h'); [apply Utf8Spec.ll_here; lia|]. assert (h = h') as -> by lia. apply Utf8Spec.ll_next, Utf8Spec.ll_here. lia.
Qed.
Lemma before_total : forall c d, Utf8Spec.scalar c -> Utf8Spec.scalar d -> before c d \/ c = d \/ before d c.
Proof.
  intros c d [_ C] [_ D]. unfold before. destruct (N.ltb_spec c 65536), (N.ltb_spec d 65536); lia.
Qed.
Lemma text_before_keeps : forall a b, text_before a b -> proper a -> proper b -> Utf8Spec.lex_less (utf16 a) (utf16 b).
Proof.
  intros a b H. induction H as [c s|c d s t B|c s t H IH]; intros A B'.
  - inversion B' as [|c' s' C _]; subst. rewrite utf16_cons. destruct (units_cases c C) as [(_ & -> & _)|(_ & h & l & -> & _)]; constructor.
  - inversion A; inversion B'; subst. rewrite !utf16_cons. now apply char_before.
  - inversion A; inversion B'; subst. rewrite !utf16_cons. apply Utf8Proofs.lex_app. now apply IH.
Qed.
Lemma text_before_total : forall a b, proper a -> proper b -> text_before a b \/ a = b \/ text_before b a.
Proof.
  intros a. induction a as [|x a IH]; intros [|y b] A B; [auto|left; constructor|right; right; constructor|].
  inversion A; inversion B; subst. destruct (before_total x y) as [L | [-> | L]]; [assumption|assumption|left; now constructor| |right; right; now constructor].
  destruct (IH b) as [H | [-> | H]]; [assumption|assumption|left; now constructor|auto|right; right; now constructor].
Qed.
Lemma text_before_iff : forall a b, proper a -> proper b -> (js_less (utf16 a) (utf16 b) = true <-> text_before a b).
Proof.
  intros a b A B. rewrite js_less_sltb, Utf8Proofs.sltb_lex. split; [|intros H; now apply text_before_keeps]. intros H.
  destruct (text_before_total a b A B) as [L | [-> | L]]; [exact L| |].
  - destruct (Utf8Proofs.lex_asym _ _ H H).
  - destruct (Utf8Proofs.lex_asym _ _ H (text_before_keeps _ _ L B A)).
Qed.
(** texts whose order is that of their code points *)
Lemma before_same : forall a b, proper a -> proper b -> 
  (Forall (fun c => (c < 65536)%N) (a ++ b) \/ Forall (fun c => ~ (57344 <= c < 65536)%N) (a ++ b)) -> (text_before a b <-> Utf8Spec.lex_less a b).
Proof.
  assert (forall a b, text_before a b -> proper a -> proper b -> 
    (Forall (fun c => (c < 65536)%N) (a ++ b) \/ Forall (fun c => ~ (57344 <= c < 65536)%N) (a ++ b)) -> Utf8Spec.lex_less a b) as ONE.
  { intros a b H. induction H as [c s|c d s t B|c s t H IH]; intros PA PB K.
    - constructor.
    - apply Utf8Spec.ll_here. unfold before in B. inversion PA as [|c' s' [_ C] _]; inversion PB as [|d' t' [_ D] _]; subst.
      assert (((c < 65536 /\ d < 65536) \/ (~ (57344 <= c < 65536) /\ ~ (57344 <= d < 65536)))%N) as KK.
      { destruct K as [K|K]; rewrite Forall_forall in K; [left|right]; (split; apply K; [left; reflexivity|apply in_or_app; right; left; reflexivity]). }
      destruct (N.ltb_spec c 65536), (N.ltb_spec d 65536); lia.
    - apply Utf8Spec.ll_next. inversion PA; inversion PB; subst. apply IH; [assumption|assumption|].
      destruct K as [K|K]; [left|right]; rewrite Forall_forall in *; intros x X; apply K; apply in_app_or in X; apply in_or_app; destruct X; [left|right|left|right]; now right. }
  intros a b A B K. split; [intros H; now apply ONE|]. intros H. destruct (text_before_total a b A B) as [L | [-> | L]]; [exact L| |].
  - destruct (Utf8Proofs.lex_asym _ _ H H).
  - destruct (Utf8Proofs.lex_asym _ _ H). apply ONE; [exact L|exact B|exact A|].
    destruct K as [K|K]; [left|right]; rewrite Forall_forall in *; intros x X; apply K; apply in_app_or in X; apply in_or_app; tauto.
Qed.
