(** Proofs about the labels of the bars. *)
From Coq Require Import String List NArith ZArith QArith Bool Lia Arith.
From Verif Require Import Base Dec Regex RegexInv ExplainTree ExplainSpec ExplainLineSpec ExplainLineProofs ExplainMatchProofs
  ExplainTreeProofs ExplainTableProofs PgExplainSpec PgPrintSpec MysqlExplainRoundtrip TitleSpec.
From Verif Require MysqlExplain PgExplain PgExplainRoundtrip.
Import ListNotations.
Local Open Scope nat_scope.

Lemma blank_space : forall c, is_space c = true <-> blank c.
Proof.
  intros c. unfold is_space, blank. rewrite !orb_true_iff, !N.eqb_eq. cbn [In]. split; intros H; decompose [or] H; subst; auto 10. easy.
Qed.
Lemma starts_with_iff : forall p s, starts_with p s = true <-> exists b, s = p ++ b.
Proof.
  induction p as [|x p IH]; intros s; cbn [starts_with].
  - split; [intros _; exists s; reflexivity|reflexivity].
  - destruct s as [|y s]; [split; [discriminate|intros (b & K); discriminate K]|]. rewrite andb_true_iff, IH, N.eqb_eq. split.
    + intros (-> & b & ->). exists b. reflexivity.
    + intros (b & K). injection K as -> ->. split; [reflexivity|exists b; reflexivity].
Qed.
Lemma before_some : forall sep s a, before sep s = Some a -> up_to sep s a.
Proof.
  intros sep. induction s as [|c s IH]; intros a H; cbn [before] in H.
  - destruct (starts_with sep []) eqn:E; [|discriminate H]. injection H as <-. apply starts_with_iff in E. destruct E as (b & E).
    split; [exists b; exact E|]. intros a' b' _. apply Nat.le_0_l.
  - destruct (starts_with sep (c :: s)) eqn:E.
    + injection H as <-. apply starts_with_iff in E. destruct E as (b & E). split; [exists b; exact E|]. intros a' b' _. apply Nat.le_0_l.
    + destruct (before sep s) as [a1|] eqn:B; [|discriminate H]. injection H as <-. destruct (IH a1 eq_refl) as ((b & ->) & M).
      split; [exists b; reflexivity|]. intros [|x a'] b' K.
      * exfalso. assert (starts_with sep (c :: a1 ++ sep ++ b) = true) by (apply starts_with_iff; exists b'; exact K). congruence.
      * injection K as <- K. cbn [length]. apply le_n_S. exact (M a' b' K).
Qed.
Lemma before_none : forall sep s, before sep s = None -> ~ occurs sep s.
Proof.
  intros sep. induction s as [|c s IH]; intros H (a & b & E); cbn [before] in H.
  - destruct (starts_with sep []) eqn:S; [discriminate H|]. symmetry in E. apply app_eq_nil in E. destruct E as [-> E]. apply app_eq_nil in E.
    destruct E as [-> ->]. discriminate S.
  - destruct (starts_with sep (c :: s)) eqn:S; [discriminate H|]. destruct (before sep s) eqn:B; [discriminate H|].
    destruct a as [|x a].
    + assert (starts_with sep (c :: s) = true) by (apply starts_with_iff; exists b; exact E). congruence.
    + injection E as <- E. apply (IH eq_refl). exists a, b. exact E.
Qed.
Lemma up_to_fun : forall sep s a a', up_to sep s a -> up_to sep s a' -> a = a'.
Proof.
  intros sep s a a' ((b & E) & M) ((b' & E') & M'). assert (L : length a = length a') by (pose proof (M _ _ E'); pose proof (M' _ _ E); lia).
  rewrite E in E'. clear - E' L. revert a' E' L. induction a as [|x a IH]; intros [|y a'] E L; try discriminate L; [reflexivity|].
  injection E as -> E. injection L as L. now rewrite (IH a' E L).
Qed.
Lemma before_up_to : forall sep s a, up_to sep s a -> before sep s = Some a.
Proof.
  intros sep s a U. destruct (before sep s) as [a'|] eqn:E.
  - apply before_some in E. now rewrite (up_to_fun _ _ _ _ U E).
  - exfalso. apply (before_none _ _ E). destruct U as ((b & U) & _). exists a, b. exact U.
Qed.
(** Every occurrence lies in the first part. *)
Lemma app_split_len : forall (u v x y : gostring), u ++ v = x ++ y -> length u <= length x -> exists z, x = u ++ z /\ v = z ++ y.
Proof.
  induction u as [|c u IH]; intros v x y E L; [exists x; split; [reflexivity|exact E]|]. destruct x as [|d x]; [cbn [length] in L; lia|].
  injection E as -> E. cbn [length] in L. destruct (IH v x y E ltac:(lia)) as (z & -> & ->). exists z. split; reflexivity.
Qed.
Lemma before_app : forall sep S Y, (forall a b, S ++ Y = a ++ sep ++ b -> length a + length sep <= length S) ->
    before sep (S ++ Y) = before sep S.
Proof.
  intros sep S Y H. destruct (before sep S) as [a|] eqn:E.
  - apply before_some in E. destruct E as ((b & ->) & M). apply before_up_to. split; [exists (b ++ Y); now rewrite <- !app_assoc|].
    intros a' b' K. pose proof (H a' b' K) as L. rewrite <- app_length in L. rewrite (app_assoc a' sep b') in K. symmetry in K.
    destruct (app_split_len _ _ _ _ K L) as (z & K1 & _). apply (M a' z). rewrite K1. now rewrite <- app_assoc.
  - destruct (before sep (S ++ Y)) as [a|] eqn:E2; [|reflexivity]. exfalso. apply (before_none _ _ E).
    apply before_some in E2. destruct E2 as ((b & K) & _). pose proof (H a b K) as L. rewrite <- app_length in L.
    rewrite (app_assoc a sep b) in K. symmetry in K. destruct (app_split_len _ _ _ _ K L) as (z & K1 & _).
    exists a, z. rewrite K1. now rewrite <- app_assoc.
Qed.
(** The separator has a character that the second part does not have. *)
Lemma nth_not_in : forall (D Y : gostring) x k, ~ In x Y -> nth_error (D ++ Y) k = Some x -> k < length D.
Proof.
  intros D Y x k N H. destruct (Nat.lt_ge_cases k (length D)) as [L|L]; [exact L|]. rewrite nth_error_app2 in H by exact L.
  elim N. eapply nth_error_In; eauto.
Qed.
Lemma before_foreign : forall u x v D Y, ~ In x (v ++ Y) -> before (u ++ x :: v) ((D ++ v) ++ Y) = before (u ++ x :: v) (D ++ v).
Proof.
  intros u x v D Y N. apply before_app. intros a b E.
  assert (K : nth_error (D ++ v ++ Y) (length a + length u) = Some x).
  { rewrite app_assoc, E, nth_error_app2 by lia. rewrite Nat.add_comm, Nat.add_sub. rewrite <- app_assoc, nth_error_app2 by lia.
    rewrite Nat.sub_diag. reflexivity. }
  apply nth_not_in in K; [|exact N]. rewrite !app_length. cbn [length]. lia.
Qed.
Lemma before_single : forall x S Y, In x S -> before [x] (S ++ Y) = before [x] S.
Proof.
  intros x. induction S as [|c S IH]; intros Y H; [contradiction|]. cbn [app before starts_with]. destruct (N.eqb_spec x c) as [->|N]; [reflexivity|].
  cbn [andb]. rewrite IH; [reflexivity|]. destruct H as [H|H]; [congruence|exact H].
Qed.
(** Trimming *)
Lemma unicode_white : forall c, is_unicode_space c = true <-> white_space c.
Proof.
  intros c. unfold is_unicode_space, white_space. rewrite !orb_true_iff, !andb_true_iff, !N.leb_le, !N.eqb_eq. cbn [In]. split.
  - intros H. lia.
  - intros H. decompose [or] H; try subst c; try easy; lia.
Qed.
Lemma trim_left_spec : forall s, exists a, s = a ++ trim_left s /\ Forall white_space a /\ forall c t, trim_left s = c :: t -> ~ white_space c.
Proof.
  induction s as [|c s (a & E & A & N)]; [exists []; split; [reflexivity|split; [constructor|easy]]|]. cbn [trim_left].
  destruct (is_unicode_space c) eqn:J.
  - exists (c :: a). split; [cbn [app]; now rewrite <- E|]. split; [constructor; [now apply unicode_white|exact A]|exact N].
  - exists []. split; [reflexivity|]. split; [constructor|]. intros c' t K. injection K as <- _. intros W. apply unicode_white in W. congruence.
Qed.
Lemma trim_stripped : forall s, stripped s (trim_space s).
Proof.
  intros s. unfold trim_space, stripped. destruct (trim_left_spec s) as (a & E & A & N). destruct (trim_left_spec (rev (trim_left s))) as (b & E2 & B & N2).
  apply (f_equal (@rev _)) in E2. rewrite rev_involutive, rev_app_distr in E2. exists a, (rev b). split; [rewrite <- E2; exact E|].
  split; [exact A|]. split; [now apply Forall_rev|]. split.
  - intros c t K. apply (N c (t ++ rev b)). rewrite E2, K. reflexivity.
  - intros c t K. apply (N2 c (rev t)). apply (f_equal (@rev _)) in K. rewrite rev_involutive, rev_app_distr in K. exact K.
Qed.

(** ** MySQL *)
(** A greedy run that goes on as long as the rest can be matched. *)
Lemma greedy_run_best : forall R p w rest i c (k : @kont R) x, forallb p w = true ->
    (forall w1 w2, rest = w1 ++ w2 -> w1 <> [] -> k (i + length w + length w1) w2 c = None) ->
    k (i + length w) rest c = Some x -> greedy_run p i (w ++ rest) c k = Some x.
Proof.
  induction w as [|y w IH]; intros rest i c k x P H K.
  - cbn [app length] in *. rewrite Nat.add_0_r in *. destruct rest as [|z rest]; cbn [greedy_run]; [exact K|]. destruct (p z); [|exact K].
    rewrite greedy_run_none; [exact K|]. intros u r -> _. specialize (H (z :: u) r eq_refl ltac:(discriminate)). cbn [length] in H.
    now rewrite Nat.add_succ_r in H.
  - cbn [forallb] in P. apply andb_true_iff in P. destruct P as [P1 P2]. cbn [app greedy_run]. rewrite P1. cbn [length] in *.
    rewrite (IH rest (S i) c k x P2); [reflexivity| |rewrite Nat.add_succ_comm; exact K].
    intros w1 w2 E N. rewrite Nat.add_succ_comm. now apply H.
Qed.
Lemma title_match : forall W tail i, W <> [] -> forallb is_dot W = true -> match W with [] => True | c :: _ => is_space c = false end ->
    ~ In 40%N tail -> exists m, match_at MysqlExplain.title_reg i (lit "-> " ++ W ++ 32%N :: 40%N :: tail) = Some m /\ capd (m_caps m) 1 = W.
Proof.
  intros W tail i N D SP P. unfold match_at, MysqlExplain.title_reg. cbn [cats]. rewrite mt_cat, mt_str.
  change (lit "-> " ++ W ++ 32%N :: 40%N :: tail) with (lit "->" ++ 32%N :: W ++ 32%N :: 40%N :: tail). rewrite prefix_of_app.
  rewrite mt_cat. change (32%N :: W ++ 32%N :: 40%N :: tail) with ([32%N] ++ W ++ 32%N :: 40%N :: tail).
  set (K0 := fun (i' : nat) (s' : gostring) (c : caps) => Some {| m_start := i; m_text := firstn (i' - i) (lit "->" ++ [32%N] ++ W ++ 32%N :: 40%N :: tail); m_caps := c; m_rest := s' |}).
  set (j := i + length (lit "->")). set (i1 := j + length [32%N]).
  set (e := i1 + length W + 1 + 1).
  exists {| m_start := i; m_text := firstn (e - i) (lit "->" ++ [32%N] ++ W ++ 32%N :: 40%N :: tail); m_caps := [(1, W)]; m_rest := tail |}.
  split; [|reflexivity]. apply mt_run_greedy; [reflexivity|discriminate|destruct W; [now elim N|exact SP]|]. fold i1.
  rewrite mt_cat, mt_grp. destruct W as [|c W]; [now elim N|]. cbn [forallb] in D. apply andb_true_iff in D. destruct D as [D1 D2].
  unfold plus at 1. rewrite mt_cat. cbn [app]. unfold dot at 1. rewrite mt_chr_cons, D1. unfold dot. rewrite star_chr_greedy.
  apply greedy_run_best; [exact D2| |].
  - intros w1 w2 E1 N1. destruct (mt (Cat (plus true space) (ch 40)) _ w2 _ K0) eqn:E; [|reflexivity]. exfalso.
    apply mt_sound in E. destruct E as (i' & s' & c' & M0 & _). apply M_cat_inv in M0. destruct M0 as (i2 & s2 & c2 & M1 & M2).
    apply M_plus_inv in M1. destruct M1 as (w & -> & _ & _ & W1 & W2). apply M_ch_inv in M2. destruct M2 as (-> & _ & _).
    destruct w1 as [|x w1]; [now elim N1|]. injection E1 as <- E1. destruct w1 as [|y w1].
    + destruct w as [|z w]; [now elim W2|]. cbn [app] in E1. injection E1 as <- _. discriminate W1.
    + injection E1 as <- E1. apply P. rewrite E1. apply in_or_app. right. apply in_or_app. right. now left.
  - change (32%N :: 40%N :: tail) with ([32%N] ++ 40%N :: tail). rewrite mt_cat. apply mt_run_greedy; [reflexivity|discriminate|reflexivity|].
    rewrite mt_ch. cbn [N.eqb Pos.eqb]. unfold K0. f_equal. subst e. cbn [length]. f_equal.
    + f_equal. lia.
    + replace (S i1 + length W - i1) with (length (c :: W)) by (cbn [length]; lia). f_equal. f_equal.
      exact (firstn_len (c :: W) (32%N :: 40%N :: tail) _ eq_refl).
Qed.

(** No number holds [x]. *)
Lemma num_lacks : forall x w, is_num x = false -> forallb is_num w = true -> ~ In x w.
Proof. intros x w N F H. rewrite (proj1 (forallb_forall _ _) F x H) in N. discriminate. Qed.
Lemma numeral_lacks : forall x w q, is_num x = false -> numeral w q -> ~ In x w.
Proof. intros x w q N H. apply num_lacks; [exact N|apply (numeral_num _ _ H)]. Qed.
Lemma count_lacks : forall x w z, is_num x = false -> count w z -> ~ In x w.
Proof. intros x w z N (_ & D & _). apply num_lacks; [exact N|now apply digits_num]. Qed.
Lemma lacks_app : forall (x : rune) a b, ~ In x a -> ~ In x b -> ~ In x (a ++ b).
Proof. intros x a b H1 H2 H. apply in_app_or in H. tauto. Qed.
Lemma lacks_lit : forall (x : rune) w, existsb (N.eqb x) w = false -> ~ In x w.
Proof. intros x w E H. enough (existsb (N.eqb x) w = true) by congruence. apply existsb_exists. exists x. split; [exact H|apply N.eqb_refl]. Qed.
Ltac lacks := repeat match goal with
  | |- ~ In _ (_ ++ _) => apply lacks_app
  end; try (apply lacks_lit; reflexivity); try (eapply numeral_lacks; [reflexivity|eassumption]); try (eapply count_lacks; [reflexivity|eassumption]).
Definition foreign (x : rune) : bool := (negb (is_num x) && negb (existsb (N.eqb x) (lit " (cost=.. rows=)")))%bool.
Lemma estimate_lacks : forall x e, foreign x = true -> (exists i c r, mysql_estimate_means e i c r) -> ~ In x (lit " " ++ mysql_estimate_text e).
Proof.
  intros x e F (i & c & r & HI & HC & _ & HR). unfold foreign in F. apply andb_true_iff in F. destruct F as [F1 F2].
  apply negb_true_iff in F1. apply negb_true_iff in F2.
  assert (G : forall w, incl w (lit " (cost=.. rows=)") -> ~ In x w).
  { intros w W H. apply (lacks_lit _ _ F2). now apply W. }
  assert (K : forall w, forallb (fun y => existsb (N.eqb y) (lit " (cost=.. rows=)")) w = true -> incl w (lit " (cost=.. rows=)")).
  { intros w W y H. pose proof (proj1 (forallb_forall _ _) W y H) as E. cbv beta in E. apply existsb_exists in E. destruct E as (z & Z1 & Z2).
    apply N.eqb_eq in Z2. now subst z. }
  unfold mysql_estimate_text. apply lacks_app; [apply G, K; reflexivity|]. apply lacks_app; [apply G, K; reflexivity|]. apply lacks_app.
  - destruct (e_init e); [|intros []]. destruct i; [|destruct HI]. destruct HI as [HI _]. apply lacks_app; [now apply (numeral_lacks _ _ _ F1 HI)|apply G, K; reflexivity].
  - apply lacks_app; [now apply (numeral_lacks _ _ _ F1 HC)|]. apply lacks_app; [|apply G, K; reflexivity].
    destruct (e_rows e); [|intros []]. destruct r; [|destruct HR]. apply lacks_app; [apply G, K; reflexivity|now apply (count_lacks _ _ _ F1 HR)].
Qed.
Lemma mysql_line_split : forall d n, mysql_printable n -> exists tail, ~ In 40%N tail /\
    mysql_node_text d n = spaces (4 * d) ++ lit "-> " ++ ((mn_desc n ++ lit " ") ++
      match mn_estimate n with Some e => lit " " ++ mysql_estimate_text e | None => [] end) ++ 32%N :: 40%N :: tail.
Proof.
  intros d n (_ & _ & _ & _ & HA). unfold mysql_node_text. destruct (mn_actual n) as [a|].
  - destruct HA as (f & v & r & l & N1 & _ & N2 & _ & C1 & C2).
    exists (lit "actual time=" ++ a_first a ++ lit ".." ++ a_avg a ++ lit " rows=" ++ a_rows a ++ lit " loops=" ++ a_loops a ++ lit ")").
    split; [lacks|]. rewrite <- !app_assoc. reflexivity.
  - exists (lit "never executed)"). split; [lacks|]. rewrite <- !app_assoc. reflexivity.
Qed.
Lemma mysql_title_of_text : forall desc Y, (forall x, In x Y -> x <> 58 /\ x <> 110)%N ->
    let txt := (desc ++ lit " ") ++ Y in
    mysql_title desc (match before (lit ":") txt with
      | Some t => trim_space t
      | None => match before (lit " join ") txt with
        | Some t => trim_space t ++ lit " join"
        | None => match before (lit " on ") txt with
          | Some t => trim_space t
          | None => match before (lit " ") txt with Some t => t | None => txt end
          end
        end
      end).
Proof.
  intros desc Y HY txt.
  assert (E1 : before (lit ":") txt = before (lit ":") (desc ++ lit " ")).
  { pose proof (before_foreign [] 58%N [] (desc ++ lit " ") Y) as B. rewrite !app_nil_r in B. apply B. intros H. now destruct (HY _ H). }
  assert (EN : forall u, before (u ++ 110%N :: lit " ") txt = before (u ++ 110%N :: lit " ") (desc ++ lit " ")).
  { intros u. apply before_foreign. intros H. cbn [app In] in H. destruct H as [H|H]; [discriminate H|]. now destruct (HY _ H). }
  pose proof (EN (lit " joi")) as E2. pose proof (EN (lit " o")) as E3.
  assert (E4 : before (lit " ") txt = before (lit " ") (desc ++ lit " ")) by (apply before_single, in_or_app; right; now left).
  change (lit " joi" ++ 110%N :: lit " ") with (lit " join ") in E2. change (lit " o" ++ 110%N :: lit " ") with (lit " on ") in E3.
  rewrite E1, E2, E3, E4. unfold mysql_title.
  destruct (before (lit ":") (desc ++ lit " ")) as [t|] eqn:B1.
  { left. exists t. split; [now apply before_some|apply trim_stripped]. }
  right. split; [now apply before_none|]. destruct (before (lit " join ") (desc ++ lit " ")) as [t|] eqn:B2.
  { left. exists t, (trim_space t). split; [now apply before_some|]. split; [apply trim_stripped|reflexivity]. }
  right. split; [now apply before_none|]. destruct (before (lit " on ") (desc ++ lit " ")) as [t|] eqn:B3.
  { left. exists t. split; [now apply before_some|apply trim_stripped]. }
  right. split; [now apply before_none|]. destruct (before (lit " ") (desc ++ lit " ")) as [t|] eqn:B4; [now apply before_some|].
  exfalso. apply (before_none _ _ B4). exists desc, []. now rewrite app_nil_r.
Qed.
Lemma mysql_line_title : forall d n l, mysql_printable n -> mysql_titled n -> MysqlExplain.rl_text l = mysql_node_text d n ->
    mysql_title (mn_desc n) (MysqlExplain.title l).
Proof.
  intros d n l HP HT E. unfold MysqlExplain.title. rewrite E. destruct (mysql_line_split d n HP) as (tail & NT & ->).
  set (Y := match mn_estimate n with Some e => lit " " ++ mysql_estimate_text e | None => [] end).
  assert (LY : forall x, foreign x = true -> ~ In x Y).
  { intros x F. unfold Y. destruct HP as (_ & _ & _ & HE & _). destruct (mn_estimate n); [now apply estimate_lacks|intros []]. }
  set (W := (mn_desc n ++ lit " ") ++ Y).
  destruct (title_match W tail (0 + length (spaces (4 * d)))) as (m & M & C).
  - unfold W. destruct (mn_desc n); discriminate.
  - apply forallb_forall. intros x H. unfold is_dot. apply negb_true_iff. apply N.eqb_neq. intros ->.
    unfold W in H. apply in_app_or in H. destruct H as [H|H]; [|now apply (LY 10%N)]. apply in_app_or in H.
    destruct H as [H|H]; [now apply (proj1 HP)|]. cbn in H. destruct H as [H|[]]. discriminate H.
  - unfold W, mysql_titled in *. destruct (mn_desc n) as [|c r]; [destruct HT|]. cbn [app]. destruct (is_space c) eqn:B; [|reflexivity].
    elim HT. now apply blank_space.
  - exact NT.
  - unfold find. rewrite (find_from_skip _ _ _ _ m).
    + rewrite C. apply mysql_title_of_text. intros x H. split; intros ->; revert H; apply LY; reflexivity.
    + intros w1 w2 W1 N2. unfold match_at, MysqlExplain.title_reg. cbn [cats]. rewrite mt_cat, mt_str.
      destruct w2 as [|y w2]; [now elim N2|]. assert (y = 32%N).
      { apply (repeat_spec (4 * d) 32%N y). fold (spaces (4 * d)). rewrite W1. apply in_or_app. right. now left. }
      subst y. reflexivity.
    + exact M.
Qed.

(** ** PostgreSQL *)
Definition stop_re : re := Cat (plus true space) (Grp 3 (Alt (str (lit "on ")) (ch 40))).
Lemma stop_inv : forall i r c i' s' c', M stop_re i r c i' s' c' -> pg_stop r /\ exists g, c' = (3, g) :: c.
Proof.
  intros i r c i' s' c' H. apply M_cat_inv in H. destruct H as (i1 & s1 & c1 & H1 & H2).
  apply M_plus_inv in H1. destruct H1 as (w & -> & _ & -> & W1 & W2). apply M_grp_inv in H2. destruct H2 as (g & c2 & H2 & _ & _ & ->).
  assert (FB : Forall blank w) by (apply Forall_forall; intros x X; apply blank_space; now apply (proj1 (forallb_forall _ _) W1)).
  apply M_alt_inv in H2. destruct H2 as [H2|H2].
  - apply M_str_inv in H2. destruct H2 as (-> & _ & ->). split; [|now exists g]. exists w, s'. split; [exact W2|]. split; [exact FB|now left].
  - apply M_ch_inv in H2. destruct H2 as (-> & _ & ->). split; [|now exists g]. exists w, s'. split; [exact W2|]. split; [exact FB|now right].
Qed.
Lemma stop_intro : forall i r c, pg_stop r -> exists i' s' c', M stop_re i r c i' s' c'.
Proof.
  intros i r c (w & b & N & B & E).
  assert (W : forallb is_space w = true) by (apply forallb_forall; intros x X; apply blank_space; now apply (proj1 (Forall_forall _ _) B)).
  destruct E as [->| ->]; eexists _, _, _; (eapply M_Cat; [now apply M_plus_intro|]).
  - apply M_grp_intro with (w := lit "on "). apply M_AltL. apply M_str_intro.
  - apply M_grp_intro with (w := lit "("). apply M_AltR. change (lit "(" ++ b) with (40%N :: b). replace (i + length w + length (lit "(")) with (S (i + length w)) by (cbn; lia).
    apply M_ch_intro.
Qed.
Lemma pg_stop_dec : forall r, pg_stop r \/ ~ pg_stop r.
Proof.
  intros r. destruct (mt stop_re 0 r [] (fun _ _ _ => Some tt)) eqn:E.
  - left. apply mt_sound in E. destruct E as (i' & s' & c' & H & _). now apply stop_inv in H.
  - right. intros H. apply (stop_intro 0 r []) in H. destruct H as (i' & s' & c' & H).
    apply (mt_complete unit) with (k := fun _ _ _ => Some tt) in H; [congruence|discriminate].
Qed.
Lemma blank_paren : forall w, Forall blank w -> ~ In 40%N w.
Proof. intros w B H. apply (proj1 (Forall_forall _ _) B) in H. cbn in H. unfold blank in H. cbn in H. repeat (destruct H as [H|H]; [discriminate H|]). destruct H. Qed.
(** Whether a place is a stop does not depend on what follows the first parenthesis. *)
Lemma pg_stop_app : forall r rest, In 40%N r -> (pg_stop (r ++ rest) <-> pg_stop r).
Proof.
  intros r rest P. split.
  - intros (w & b & N & B & E). destruct E as [E|E].
    + destruct (Nat.le_gt_cases (length (w ++ lit "on ")) (length r)) as [L|L].
      * rewrite app_assoc in E. symmetry in E. destruct (app_split_len _ _ _ _ E L) as (z & -> & _). exists w, z. rewrite <- app_assoc. auto.
      * exfalso. rewrite app_assoc in E. destruct (app_split_len _ _ _ _ E ltac:(lia)) as (z & Z & _).
        assert (In 40%N (w ++ lit "on ")) by (rewrite Z; apply in_or_app; now left). apply in_app_or in H. destruct H as [H|H].
        -- now apply (blank_paren w B).
        -- cbn in H. repeat (destruct H as [H|H]; [discriminate H|]). destruct H.
    + destruct (Nat.le_gt_cases (length (w ++ lit "(")) (length r)) as [L|L].
      * rewrite app_assoc in E. symmetry in E. destruct (app_split_len _ _ _ _ E L) as (z & -> & _). exists w, z. rewrite <- app_assoc. auto.
      * exfalso. rewrite app_length in L. cbn in L. destruct (app_split_len _ _ _ _ E ltac:(lia)) as (z & Z & _).
        apply (blank_paren w B). rewrite Z. apply in_or_app. now left.
  - intros (w & b & N & B & [->| ->]); exists w, (b ++ rest); rewrite <- !app_assoc; auto.
Qed.
Lemma pg_title_exists : forall desc, desc <> [] -> exists t, pg_title desc t.
Proof.
  intros desc N. set (s := desc ++ lit "  (").
  assert (G : forall k, k < length s -> (forall t r, s = t ++ r -> t <> [] -> pg_stop r -> k <= length t) ->
     exists t, pg_title desc t).
  { assert (K : forall m k, length desc - k = m -> 0 < k -> k <= length desc -> (forall t r, s = t ++ r -> t <> [] -> pg_stop r -> k <= length t) ->
       exists t, pg_title desc t).
    { induction m as [|m IH]; intros k E K0 KL H.
      - exists desc. split; [exact N|]. split; [exists (lit "  ("); split; [reflexivity|]|].
        + exists (lit "  "), []. split; [discriminate|]. split; [repeat constructor; cbn; tauto|right; reflexivity].
        + intros t r E1 N1 P. assert (k = length desc) by lia. subst k. now apply (H t r).
      - destruct (pg_stop_dec (skipn k s)) as [P|P].
        + exists (firstn k s). assert (L : length (firstn k s) = k). { apply firstn_length_le. unfold s. rewrite app_length. lia. }
          split; [intros Z; rewrite Z in L; cbn in L; lia|]. split; [exists (skipn k s); split; [symmetry; apply firstn_skipn|exact P]|].
          intros t r E1 N1 P1. rewrite L. now apply (H t r).
        + apply (IH (S k)); [lia|lia|lia|]. intros t r E1 N1 P1. pose proof (H t r E1 N1 P1) as L.
          destruct (Nat.eq_dec (length t) k) as [Q|Q]; [|lia]. exfalso. apply P. rewrite E1, skipn_app, <- Q, skipn_all, Nat.sub_diag. exact P1. }
    intros k _ _. apply (K (length desc - 1) 1); [reflexivity|lia| |].
    - destruct desc; [now elim N|cbn; lia].
    - intros t r _ N1 _. destruct t; [now elim N1|cbn; lia]. }
  apply (G 0); [|intros; lia]. unfold s. rewrite app_length. cbn. lia.
Qed.
Lemma suffix_paren : forall desc t r, desc ++ lit "  (" = t ++ r -> r <> [] -> In 40%N r.
Proof.
  intros desc t r E N. destruct (exists_last N) as (r' & x & ->). rewrite app_assoc in E.
  change (lit "  (") with (lit "  " ++ [40%N]) in E. rewrite app_assoc in E. apply app_inj_tail in E. destruct E as [_ <-].
  apply in_or_app. right. now left.
Qed.
Lemma pg_stop_nonempty : forall r, pg_stop r -> r <> [].
Proof. intros r (w & b & N & _ & [->| ->]) E; destruct w; [now elim N|discriminate E|now elim N|discriminate E]. Qed.
Lemma pg_group_match : forall desc t rest i c (k : @kont match_result), ~ In nl desc -> pg_title desc t ->
    (forall i' s' c', exists m, k i' s' c' = Some m /\ m_caps m = c') ->
    exists m, mt (Cat (Grp 2 (plus false dot)) stop_re) i (desc ++ lit "  (" ++ rest) c k = Some m /\ capd (m_caps m) 2 = t.
Proof.
  intros desc t rest i c k NL (NT & (r & E & P) & MIN) HK.
  assert (PR : In 40%N r) by (apply (suffix_paren desc t); [exact E|now apply pg_stop_nonempty]).
  assert (D : forallb is_dot t = true).
  { apply forallb_forall. intros x H. unfold is_dot. apply negb_true_iff. apply N.eqb_neq. intros ->.
    assert (In nl (desc ++ lit "  (")) by (rewrite E; apply in_or_app; now left). apply in_app_or in H0. destruct H0 as [H0|H0]; [tauto|].
    cbn in H0. repeat (destruct H0 as [H0|H0]; [discriminate H0|]). destruct H0. }
  rewrite app_assoc, E, <- app_assoc, mt_cat, mt_grp. destruct t as [|x w]; [now elim NT|]. cbn [forallb] in D. apply andb_true_iff in D. destruct D as [D1 D2].
  unfold plus at 1. rewrite mt_cat. cbn [app]. unfold dot at 1. rewrite mt_chr_cons, D1. unfold dot. rewrite star_chr_lazy.
  set (kk := fun (i' : nat) (s' : gostring) (c1 : caps) => mt stop_re i' s' ((2, firstn (i' - i) (x :: w ++ r ++ rest)) :: c1) k).
  assert (HE : exists m, kk (S i + length w) (r ++ rest) c = Some m /\ capd (m_caps m) 2 = x :: w).
  { assert (Q : pg_stop (r ++ rest)) by now apply pg_stop_app. unfold kk.
    replace (firstn (S i + length w - i) (x :: w ++ r ++ rest)) with (x :: w).
    2:{ symmetry. change (x :: w ++ r ++ rest) with ((x :: w) ++ r ++ rest). apply firstn_len. cbn [length]. lia. }
    apply (stop_intro (S i + length w) (r ++ rest) ((2, x :: w) :: c)) in Q. destruct Q as (i' & s' & c' & Q).
    apply mt_complete with (k := k) in Q.
    - destruct (mt stop_re (S i + length w) (r ++ rest) ((2, x :: w) :: c) k) as [m|] eqn:EM; [|now elim Q]. exists m. split; [reflexivity|].
      apply mt_sound in EM. destruct EM as (i2 & s2 & c2 & M2 & K2). apply stop_inv in M2. destruct M2 as (_ & g & ->).
      destruct (HK i2 s2 ((3, g) :: (2, x :: w) :: c)) as (m' & M' & C'). rewrite M' in K2. injection K2 as <-. rewrite C'. reflexivity.
    - destruct (HK i' s' c') as (m' & M' & _). congruence. }
  destruct HE as (m & HE & HC). exists m. split; [|exact HC]. apply lazy_run_first; [exact D2| |exact HE].
  intros w1 w2 -> N2. unfold kk. destruct (mt stop_re (S i + length w1) (w2 ++ r ++ rest) _ k) eqn:EM; [|reflexivity]. exfalso.
  apply mt_sound in EM. destruct EM as (i2 & s2 & c2 & M2 & _). apply stop_inv in M2. destruct M2 as (M2 & _).
  rewrite app_assoc in M2. apply (proj1 (pg_stop_app (w2 ++ r) rest (in_or_app w2 r 40%N (or_intror PR)))) in M2.
  assert (L : length (x :: w1 ++ w2) <= length (x :: w1)).
  { apply (MIN (x :: w1) (w2 ++ r)); [rewrite E; cbn [app]; now rewrite <- app_assoc|discriminate|exact M2]. }
  cbn [length] in L. rewrite app_length in L. destruct w2; [now elim N2|cbn [length] in L; lia].
Qed.
Lemma star_none : forall R g i s c (k : @kont R), match s with [] => True | y :: _ => is_space y = false end -> mt (Star g space) i s c k = k i s c.
Proof.
  intros R g i s c k H. unfold space. destruct g; [rewrite star_chr_greedy|rewrite star_chr_lazy]; destruct s as [|y s]; cbn [greedy_run lazy_run]; try reflexivity.
  - now rewrite H.
  - destruct (k i [] c); reflexivity.
  - rewrite H. destruct (k i (y :: s) c); reflexivity.
Qed.
Lemma pg_reg_match : forall h desc t rest, (h = [] \/ exists k, h = spaces k ++ lit "->  ") ->
    match desc with [] => False | c :: _ => ~ blank c end -> ~ In nl desc -> (~ exists b, desc = lit "->" ++ b) -> pg_title desc t ->
    exists m, match_at PgExplain.title_reg 0 (h ++ desc ++ lit "  (" ++ rest) = Some m /\ capd (m_caps m) 2 = t.
Proof.
  intros h desc t rest HH HB NL NA HT. unfold match_at. set (full := h ++ desc ++ lit "  (" ++ rest).
  set (k := fun (i' : nat) (s' : gostring) (c : caps) => Some {| m_start := 0; m_text := firstn (i' - 0) full; m_caps := c; m_rest := s' |}).
  assert (HK : forall i' s' c', exists m, k i' s' c' = Some m /\ m_caps m = c') by (intros; unfold k; eexists; split; reflexivity).
  unfold PgExplain.title_reg. cbn [cats]. fold stop_re. unfold full.
  assert (HD : match desc ++ lit "  (" ++ rest with [] => True | y :: _ => is_space y = false end).
  { destruct desc as [|y desc]; [destruct HB|]. cbn [app]. destruct (is_space y) eqn:B; [|reflexivity]. elim HB. now apply blank_space. }
  destruct HH as [->|(n & ->)].
  - cbn [app]. rewrite mt_cat, star_none by exact HD. rewrite mt_cat. unfold opt. rewrite mt_alt, mt_grp, mt_str.
    destruct (prefix_of (lit "->") (desc ++ lit "  (" ++ rest)) as [u|] eqn:PX.
    { exfalso. apply prefix_of_some in PX. destruct desc as [|x [|y desc]]; [destruct HB|discriminate PX|].
      change (lit "->" ++ u) with (45%N :: 62%N :: u) in PX. cbn [app] in PX. injection PX as -> -> _. apply NA. now exists desc. }
    cbn [orelse]. rewrite mt_eps, mt_cat, star_none by exact HD. apply pg_group_match; assumption.
  - destruct (pg_group_match desc t rest (0 + length (spaces n) + length (lit "->") + length (lit "  ")) ([(1, firstn (0 + length (spaces n) + length (lit "->") - (0 + length (spaces n))) (lit "->" ++ lit "  " ++ desc ++ lit "  (" ++ rest))]) k NL HT HK) as (m & EM & CM).
    exists m. split; [|exact CM]. rewrite mt_cat. unfold space at 1. rewrite star_chr_greedy, <- app_assoc. apply greedy_run_longest; [|reflexivity|].
    { apply forallb_forall. intros x H. apply repeat_spec in H. now subst x. }
    rewrite mt_cat. unfold opt. rewrite mt_alt, mt_grp, mt_str. change (lit "->  " ++ desc ++ lit "  (" ++ rest) with (lit "->" ++ lit "  " ++ desc ++ lit "  (" ++ rest).
    rewrite prefix_of_app. rewrite mt_cat. unfold space at 1. rewrite star_chr_greedy.
    erewrite greedy_run_longest; [reflexivity|reflexivity|exact HD|exact EM].
Qed.

Lemma pg_metric_line : forall ind n, pg_printable n -> exists h, (h = [] \/ exists k, h = spaces k ++ lit "->  ") /\
    PgExplain.metric_line (pg_node_lines ind n) = h ++ pn_desc n ++ pg_numbers n.
Proof.
  intros ind n H. pose proof H as (_ & _ & _ & HL & _ & (i & c & r & w & HE) & _).
  assert (HMet : forall h rest, PgExplain.metric_line ((h ++ pn_desc n ++ pg_numbers n) :: rest) = h ++ pn_desc n ++ pg_numbers n).
  { intros h rest. cbn [PgExplain.metric_line]. unfold pg_numbers.
    replace (h ++ pn_desc n ++ lit "  " ++ pg_estimate_text (pn_estimate n) ++
      match pn_actual n with Some a => lit " " ++ actual_text a | None => lit " (never executed)" end) with
      ((h ++ pn_desc n ++ lit "  ") ++ pg_estimate_text (pn_estimate n) ++
      match pn_actual n with Some a => lit " " ++ actual_text a | None => lit " (never executed)" end)
      by (now rewrite <- !app_assoc).
    rewrite (PgExplainRoundtrip.is_metric _ _ i c r w); auto. }
  destruct ind as [|ind]; cbn [pg_node_lines].
  - exists []. split; [now left|]. apply (HMet []).
  - destruct (pn_label n) as [l|].
    + exists (spaces (2 * (S ind + 1)) ++ lit "->  "). split; [right; now exists (2 * (S ind + 1))|].
      cbn [PgExplain.metric_line app]. rewrite PgExplainRoundtrip.not_metric.
      * rewrite <- app_assoc. rewrite app_assoc. rewrite app_assoc. rewrite <- app_assoc. apply HMet.
      * intros K. apply occurs_after in K; [|apply PgExplainRoundtrip.spaces_no_paren]. tauto.
    + exists (spaces (2 * S ind) ++ lit "->  "). split; [right; now exists (2 * S ind)|].
      cbn [app]. rewrite <- app_assoc. rewrite app_assoc. rewrite app_assoc. rewrite <- app_assoc. apply HMet.
Qed.
Lemma pg_node_title : forall ind n v, pg_printable n -> pg_titled n -> PgExplain.rn_lines v = pg_node_lines ind n ->
    pg_title (pn_desc n) (PgExplain.title v).
Proof.
  intros ind n v HP (T1 & T2 & T3) E. unfold PgExplain.title. rewrite E. destruct (pg_metric_line ind n HP) as (h & HH & ->).
  destruct (pg_title_exists (pn_desc n)) as (t & HT); [intros Z; rewrite Z in T1; exact T1|].
  set (rest := lit "cost=" ++ g_init (pn_estimate n) ++ lit ".." ++ g_cost (pn_estimate n) ++ lit " rows=" ++ g_rows (pn_estimate n) ++
    lit " width=" ++ g_width (pn_estimate n) ++ lit ")" ++ match pn_actual n with Some a => lit " " ++ actual_text a | None => lit " (never executed)" end).
  assert (EN : pg_numbers n = lit "  (" ++ rest).
  { unfold pg_numbers, pg_estimate_text, rest. rewrite <- !app_assoc. reflexivity. }
  rewrite EN. destruct (pg_reg_match h (pn_desc n) t rest HH T1 T2 T3 HT) as (m & M & C).
  unfold find. pose proof (find_from_skip PgExplain.title_reg [] (h ++ pn_desc n ++ lit "  (" ++ rest) 0 m) as F. cbn [app length] in F.
  rewrite F; [now rewrite C| |exact M]. intros w1 w2 W N2. destruct w1; [|discriminate W]. cbn in W. subst w2. now elim N2.
Qed.
Lemma mirrors_preorder : forall {A B} (R : nat -> A -> B -> Prop) t d t', mirrors R d t t' ->
    Forall2 (fun a b => exists d, R d a b) (preorder t) (preorder t').
Proof.
  intros A B R. apply (tree_ind' (fun t => forall d t', mirrors R d t t' -> Forall2 (fun a b => exists d, R d a b) (preorder t) (preorder t'))).
  intros a cs IH d t' H. inversion H as [d0 a0 b cs0 ds HR HC]; subst. cbn [preorder]. constructor; [now exists d|].
  clear H HR. induction HC as [|c c' cs cs' H1 H2 IH2]; [constructor|]. inversion IH; subst. cbn [flat_map]. apply Forall2_app; eauto.
Qed.
Lemma pg_mirrors_preorder : forall {B} (R : nat -> pg_node -> B -> Prop) t d t', pg_mirrors R d t t' ->
    Forall2 (fun a b => exists d, R d a b) (preorder t) (preorder t').
Proof.
  intros B R. apply (tree_ind' (fun t => forall d t', pg_mirrors R d t t' -> Forall2 (fun a b => exists d, R d a b) (preorder t) (preorder t'))).
  intros a cs IH d t' H. inversion H as [d0 a0 b cs0 ds HR HC]; subst. cbn [preorder]. constructor; [now exists d|].
  clear H HR. induction HC as [|c c' cs cs' H1 H2 IH2]; [constructor|]. inversion IH; subst. cbn [flat_map]. apply Forall2_app; eauto.
Qed.

Lemma app_len_inj : forall (u v x y : gostring), u ++ v = x ++ y -> length u = length x -> u = x /\ v = y.
Proof.
  intros u v x y E L. destruct (app_split_len u v x y E ltac:(lia)) as (z & -> & ->). rewrite app_length in L. destruct z; [|cbn in L; lia].
  now rewrite app_nil_r.
Qed.
Lemma stripped_white : forall s t t', stripped s t -> stripped s t' -> t = [] -> t' = [].
Proof.
  intros s t t' (a & b & E & A1 & A2 & _) (a' & b' & E' & _ & _ & B3 & _) ->. destruct t' as [|c r]; [reflexivity|]. elim (B3 c r eq_refl).
  assert (H : In c (a ++ b)) by (change (a ++ b) with (a ++ [] ++ b); rewrite <- E, E'; apply in_or_app; right; now left).
  apply in_app_or in H. destruct H as [H|H]; [now apply (proj1 (Forall_forall _ _) A1)|now apply (proj1 (Forall_forall _ _) A2)].
Qed.
Lemma stripped_le : forall s t t', stripped s t -> stripped s t' -> t <> [] -> t' <> [] -> exists a b b', s = a ++ t ++ b /\ s = a ++ t' ++ b' /\ Forall white_space b /\ Forall white_space b'.
Proof.
  intros s t t' (a & b & E & A1 & A2 & A3 & _) (a' & b' & E' & B1 & B2 & B3 & _) N N'. rewrite E in E'.
  destruct (Nat.lt_trichotomy (length a) (length a')) as [L|[L|L]].
  - exfalso. destruct (app_split_len _ _ _ _ E' ltac:(lia)) as (z & -> & Z). destruct z as [|c z]; [rewrite app_nil_r in L; lia|].
    destruct t as [|x t]; [now elim N|]. injection Z as -> _. apply (A3 c t eq_refl). apply (proj1 (Forall_forall _ _) B1), in_or_app. right. now left.
  - destruct (app_len_inj _ _ _ _ E' L) as [-> Z]. exists a', b, b'. rewrite E. split; [reflexivity|]. split; [now rewrite <- Z|]. split; [exact A2|exact B2].
  - exfalso. symmetry in E'. destruct (app_split_len _ _ _ _ E' ltac:(lia)) as (z & -> & Z). destruct z as [|c z]; [rewrite app_nil_r in L; lia|].
    destruct t' as [|x t']; [now elim N'|]. injection Z as -> _. apply (B3 c t' eq_refl). apply (proj1 (Forall_forall _ _) A1), in_or_app. right. now left.
Qed.
Lemma stripped_unique : forall s t t', stripped s t -> stripped s t' -> t = t'.
Proof.
  intros s t t' H H'. destruct t as [|x t]; [symmetry; now apply (stripped_white s [] t')|]. destruct t' as [|x' t']; [now apply (stripped_white s [] (x :: t))|].
  destruct (stripped_le s _ _ H H' ltac:(discriminate) ltac:(discriminate)) as (a & b & b' & E & E' & W & W'). rewrite E in E'. apply app_inv_head in E'.
  destruct H as (_ & _ & _ & _ & _ & _ & T4). destruct H' as (_ & _ & _ & _ & _ & _ & T4').
  assert (K : forall t t' b b', t ++ b = t' ++ b' -> Forall white_space b -> (forall c r, t' = r ++ [c] -> ~ white_space c) -> length t < length t' -> False).
  { clear. intros t t' b b' E W T L. destruct (app_split_len _ _ _ _ E ltac:(lia)) as (z & -> & ->).
    destruct z as [|c0 z0]; [rewrite app_nil_r in L; lia|]. destruct (@exists_last _ (c0 :: z0) ltac:(discriminate)) as (z & c & EZ). rewrite EZ in *.
    apply (T c (t ++ z)); [now rewrite app_assoc|]. apply (proj1 (Forall_forall _ _) W). apply in_or_app. left. apply in_or_app. right. now left. }
  destruct (Nat.lt_trichotomy (length (x :: t)) (length (x' :: t'))) as [L|[L|L]].
  - now elim (K _ _ _ _ E' W T4' L).
  - now apply app_len_inj in E'.
  - symmetry in E'. now elim (K _ _ _ _ E' W' T4 L).
Qed.
