(** The order in which Object.keys lists, and the order of creation in a ranking. *)
From Coq Require Import String List NArith ZArith QArith Bool Lia Arith Permutation.
From Verif Require Import Base Dec IndexBuild Pi LoadCharts LoadChartsSpec LoadChartsProofs JsCharts JsChartsSpec JsChartsProofs JsRankingProofs JsOrderSpec.
Import ListNotations.
Local Open Scope nat_scope.

(** ** Decimal texts *)
Lemma dec_fuel_irr : forall f g n, (n < 2 ^ N.of_nat (S f))%N -> (n < 2 ^ N.of_nat (S g))%N -> dec_fuel (S f) n = dec_fuel (S g) n.
Proof.
  induction f as [|f IH]; intros g n F G.
  - assert (n < 10)%N as L by (cbn in F; lia). cbn [dec_fuel]. apply N.ltb_lt in L. now rewrite L.
  - cbn [dec_fuel]. destruct (N.ltb_spec n 10) as [L | L]; [reflexivity|]. f_equal. destruct g as [|g].
    + cbn in G. lia.
    + apply IH; now apply div10_lt.
Qed.
Lemma dec_step : forall n d, (1 <= n)%N -> (d < 10)%N -> dec_of_N (10 * n + d) = dec_of_N n ++ [(48 + d)%N].
Proof.
  intros n d N1 D. unfold dec_of_N at 1. cbn [dec_fuel]. destruct (N.ltb_spec (10 * n + d) 10) as [L | L]; [lia|].
  assert ((10 * n + d) / 10 = n)%N as Q1 by (symmetry; apply N.div_unique with d; lia).
  assert ((10 * n + d) mod 10 = d)%N as Q2 by (symmetry; apply N.mod_unique with n; lia).
  rewrite Q1, Q2. f_equal. pose proof (log2_fuel (10 * n + d)) as F. destruct (N.to_nat (N.log2 (10 * n + d))) as [|f].
  - change (2 ^ N.of_nat 1)%N with 2%N in F. lia.
  - unfold dec_of_N. apply dec_fuel_irr; [|apply log2_fuel]. rewrite <- Q1. now apply div10_lt.
Qed.
Lemma digits_pos : forall k c, (c <> 48)%N -> is_digit c = true -> (1 <= digits_val 0 (c :: k))%N.
Proof.
  intros k c NC D. cbn [digits_val]. unfold is_digit in D. apply andb_true_iff in D as [D1 D2]. apply N.leb_le in D1, D2.
  assert (forall k a, (1 <= a)%N -> (1 <= digits_val a k)%N) as M.
  { clear. induction k as [|x k IH]; intros a L; cbn [digits_val]; [exact L|]. apply IH. lia. }
  apply M. lia.
Qed.
Lemma dec_canonical : forall k, k <> [] -> forallb is_digit k = true -> (match k with c :: k' => c <> 48%N \/ k' = [] | [] => True end) ->
  dec_of_N (digits_val 0 k) = k.
Proof.
  intros k. induction k as [|c k IH] using rev_ind; [congruence|]. intros _ D H. rewrite forallb_app in D. apply andb_true_iff in D as [D1 D2].
  cbn [forallb] in D2. apply andb_true_iff in D2 as [D2 _]. pose proof D2 as D3. unfold is_digit in D3. apply andb_true_iff in D3 as [D3 D4]. apply N.leb_le in D3, D4.
  destruct k as [|x k].
  - cbn [app digits_val]. change (10 * 0)%N with 0%N. rewrite N.add_0_l. unfold dec_of_N. cbn [dec_fuel]. destruct (N.ltb_spec (c - 48) 10) as [L | L]; [|lia].
    f_equal. lia.
  - cbn [app] in H. destruct H as [H | H]; [|apply app_eq_nil in H as [_ H]; discriminate].
    rewrite digits_val_app. cbn [digits_val app forallb] in *. apply andb_true_iff in D1 as [DX D1].
    pose proof (digits_pos k x H DX) as P. cbn [digits_val] in P. rewrite dec_step; [|exact P|lia].
    rewrite IH; [|discriminate|now rewrite DX|now left]. cbn [app]. f_equal. f_equal. f_equal. lia.
Qed.
Lemma dec_head : forall n c k, dec_of_N n = c :: k -> c <> 48%N \/ k = [].
Proof.
  intros n. induction n as [n IH] using (well_founded_induction N.lt_wf_0). intros c k E. destruct (N.ltb_spec n 10) as [L | L].
  - right. unfold dec_of_N in E. cbn [dec_fuel] in E. apply N.ltb_lt in L. rewrite L in E. congruence.
  - pose proof (N.div_mod n 10 ltac:(lia)) as DM. pose proof (N.mod_lt n 10 ltac:(lia)) as ML.
    assert (1 <= n / 10)%N as P by (apply N.div_le_lower_bound; lia). rewrite DM, dec_step in E; [|exact P|exact ML].
    destruct (dec_of_N (n / 10)) as [|c' k'] eqn:EQ; [now apply dec_of_N_nonempty in EQ|]. cbn [app] in E. injection E as -> E.
    left. destruct (IH (n / 10)%N) with (c := c) (k := k') as [H | H]; [apply N.div_lt; lia|exact EQ|exact H|].
    subst k'. intros ->. assert (n / 10 = 0)%N; [|lia]. rewrite <- (dec_of_N_val (n / 10)), EQ. reflexivity.
Qed.
Lemma index_key_text : forall k n, index_key k = Some n <-> index_text k n.
Proof.
  intros k n. unfold index_text, index_key.
  assert (forall k a, fold_left (fun a c => (a * 10 + (c - 48))%N) k a = digits_val a k) as FV.
  { clear. induction k as [|c k IH]; intros a; [reflexivity|]. cbn [fold_left digits_val]. rewrite IH. f_equal. lia. }
  rewrite FV. change (forallb digit k) with (forallb is_digit k). split.
  - destruct k as [|c k]; [discriminate|].
    destruct (forallb is_digit (c :: k) && (negb (N.eqb c 48) || seqb k []) && N.ltb (digits_val 0 (c :: k)) 4294967295)%bool eqn:B; [|discriminate].
    intros H. assert (digits_val 0 (c :: k) = n) as <- by congruence. clear H. apply andb_true_iff in B as [B B3]. apply andb_true_iff in B as [B1 B2].
    apply N.ltb_lt in B3. split; [|exact B3]. symmetry. apply dec_canonical; [discriminate|exact B1|].
    apply orb_true_iff in B2 as [B2 | B2]; [left|right; now apply seqb_eq in B2]. apply negb_true_iff, N.eqb_neq in B2. exact B2.
  - intros [-> L]. pose proof (dec_of_N_val n) as V. pose proof (dec_of_N_digits n) as D. pose proof (dec_head n) as H.
    destruct (dec_of_N n) as [|c k] eqn:E; [now apply dec_of_N_nonempty in E|]. change (forallb digit (c :: k)) with (forallb is_digit (c :: k)).
    rewrite D, V. apply N.ltb_lt in L. rewrite L. destruct (H c k eq_refl) as [NC | ->].
    + apply N.eqb_neq in NC. now rewrite NC.
    + cbn. now rewrite orb_true_r.
Qed.

(** ** Standing before *)
Lemma before_cons : forall A (l : list A) x a b, before (x :: l) a b <-> (x = a /\ In b l) \/ before l a b.
Proof.
  intros A l x a b. split.
  - intros (p & q & r & E). destruct p as [|y p]; cbn [app] in E.
    + injection E as -> ->. left. split; [reflexivity|]. apply in_or_app. right. now left.
    + injection E as -> ->. right. now exists p, q, r.
  - intros [[-> I] | (p & q & r & ->)].
    + apply in_split in I as (q & r & ->). now exists [], q, r.
    + now exists (x :: p), q, r.
Qed.
Lemma before_nil : forall A (a b : A), ~ before [] a b.
Proof. intros A a b (x & y & z & E). destruct x; discriminate. Qed.
Lemma before_in : forall A (l : list A) a b, before l a b -> In a l /\ In b l.
Proof.
  intros A l a b (x & y & z & ->). split; apply in_or_app; right; [now left|]. right. apply in_or_app. right. now left.
Qed.
Lemma before_app : forall A (l m : list A) a b, before (l ++ m) a b <-> before l a b \/ before m a b \/ (In a l /\ In b m).
Proof.
  intros A l m a b. induction l as [|x l IH]; cbn [app].
  - split; [auto|]. intros [H | [H | [[] _]]]; [now apply before_nil in H|exact H].
  - rewrite !before_cons, IH, in_app_iff. cbn [In]. intuition (subst; auto).
Qed.
Lemma before_flat_map : forall A B (f : A -> list B) l a b, before (flat_map f l) a b ->
  (exists x, In x l /\ before (f x) a b) \/ (exists x y, before l x y /\ In a (f x) /\ In b (f y)).
Proof.
  intros A B f l a b. induction l as [|x l IH]; cbn [flat_map]; [intros H; now apply before_nil in H|].
  rewrite before_app. intros [H | [H | [H1 H2]]].
  - left. exists x. split; [now left|exact H].
  - destruct (IH H) as [(y & I & J) | (y & z & I & J)]; [left; exists y; split; [now right|exact J]|right]. exists y, z. split; [|exact J].
    apply before_cons. now right.
  - apply in_flat_map in H2 as (y & I & J). right. exists x, y. split; [apply before_cons; now left|]. now split.
Qed.
Lemma before_map : forall A B (f : A -> B) l a b, before (map f l) a b -> exists x y, before l x y /\ f x = a /\ f y = b.
Proof.
  intros A B f l a b. induction l as [|x l IH]; cbn [map]; [intros H; now apply before_nil in H|]. rewrite before_cons. intros [[E I] | H].
  - apply in_map_iff in I as (y & E2 & I). exists x, y. split; [apply before_cons; now left|]. now split.
  - destruct (IH H) as (y & z & I & J). exists y, z. split; [apply before_cons; now right|exact J].
Qed.
Lemma before_filter : forall A (p : A -> bool) l a b, before (filter p l) a b <-> before l a b /\ p a = true /\ p b = true.
Proof.
  intros A p l a b. induction l as [|x l IH]; cbn [filter].
  - split; [intros H|intros [H _]]; now apply before_nil in H.
  - destruct (p x) eqn:E; rewrite before_cons.
    + rewrite before_cons, IH, filter_In. intuition (subst; auto).
    + rewrite IH. split; [intuition|]. intros ([[-> I] | H] & P1 & P2); [congruence|]. now split.
Qed.
Lemma before_firstn : forall A n (l : list A) a b, before (firstn n l) a b -> before l a b.
Proof. intros A n l a b H. rewrite <- (firstn_skipn n l). apply before_app. now left. Qed.

(** ** Object.keys *)
Lemma in_index_keys : forall l n k, In (n, k) (index_keys l) <-> In k l /\ index_key k = Some n.
Proof.
  intros l n k. assert (forall m j l, In (n, k) (insert_key m j l) <-> (n, k) = (m, j) \/ In (n, k) l) as INS.
  { clear. intros m j l. induction l as [|[m' j'] l IH]; cbn [insert_key In]; [intuition|]. destruct (N.ltb m m'); cbn [In]; [intuition|]. rewrite IH. intuition. }
  induction l as [|j l IH]; cbn [index_keys In]; [intuition|]. destruct (index_key j) as [m|] eqn:E.
  - rewrite INS, IH. split.
    + intros [H | [H1 H2]]; [|intuition]. injection H as -> ->. now split; [left|].
    + intros [[-> | I] H2]; [left; congruence|right; now split].
  - rewrite IH. split; [intuition|]. intros [[-> | I] H2]; [congruence|now split].
Qed.
Lemma insert_sorted : forall n k l, (forall e e', before l e e' -> (fst e < fst e')%N) -> ~ In n (map fst l) ->
  forall e e', before (insert_key n k l) e e' -> (fst e < fst e')%N.
Proof.
  intros n k l. induction l as [|[m j] l IH]; cbn [insert_key map fst]; intros S NI e e' B.
  - apply before_cons in B as [[_ []] | B]. now apply before_nil in B.
  - assert (forall e, In e l -> (m < fst e)%N) as ML. { intros x I. apply (S (m, j) x). apply before_cons. now left. }
    assert (n <> m) as NM by (intros ->; apply NI; now left).
    destruct (N.ltb_spec n m) as [L | L].
    + apply before_cons in B as [[<- I] | B]; [|now apply S]. cbn [fst]. destruct I as [<- | I]; [exact L|]. specialize (ML _ I). lia.
    + apply before_cons in B as [[<- I] | B].
      * cbn [fst]. assert (e' = (n, k) \/ In e' l) as [-> | J]; [|cbn [fst]; lia|now apply ML].
        clear -I. induction l as [|[m' j'] l IH]; cbn [insert_key] in I; [destruct I as [<- | []]; now left|].
        destruct (N.ltb n m'); cbn [In] in I |- *; [|destruct I as [<- | I]; [auto|destruct (IH I); auto]]. destruct I as [<- | I]; auto.
      * apply IH; [|intros I; apply NI; now right|exact B]. intros x y H. apply S. apply before_cons. now right.
Qed.
Lemma index_keys_sorted : forall l, NoDup l -> forall e e', before (index_keys l) e e' -> (fst e < fst e')%N.
Proof.
  intros l. induction l as [|k l IH]; intros ND; cbn [index_keys]; [intros e e' B; now apply before_nil in B|].
  apply NoDup_cons_iff in ND as [N1 N2]. destruct (index_key k) as [n|] eqn:E; [|now apply IH]. apply insert_sorted; [now apply IH|].
  intros I. apply in_map_iff in I as ((m & j) & EM & I). cbn [fst] in EM. subst m. apply in_index_keys in I as [I J].
  apply index_key_text in E as [-> _]. apply index_key_text in J as [-> _]. contradiction.
Qed.
Lemma js_keys_order : forall l a b, NoDup l -> before (js_keys l) a b -> member_first (before l) a b.
Proof.
  intros l a b ND. unfold js_keys. rewrite before_app.
  assert (forall k, (forall n, ~ index_text k n) <-> (match index_key k with Some _ => false | None => true end) = true) as NI.
  { intros k. split.
    - intros H. destruct (index_key k) as [n|] eqn:E; [|reflexivity]. apply index_key_text in E. now elim (H n).
    - intros H n J. apply index_key_text in J. rewrite J in H. discriminate. }
  intros [B | [B | [I J]]].
  - left. apply before_map in B as ((n & k) & (m & j) & B & <- & <-). pose proof (before_in _ _ _ _ B) as [I J].
    apply in_index_keys in I as [_ I], J as [_ J]. apply index_keys_sorted in B; [|exact ND]. cbn [fst snd] in *. exists n.
    split; [now apply index_key_text|]. left. exists m. split; [now apply index_key_text|exact B].
  - right. apply before_filter in B as (B & P1 & P2). split; [now apply NI|]. split; [now apply NI|exact B].
  - left. apply in_map_iff in I as ((n & k) & <- & I). apply in_index_keys in I as [_ I]. cbn [snd]. exists n. split; [now apply index_key_text|].
    right. apply filter_In in J as [_ J]. now apply NI.
Qed.

(** ** The first appearances *)
Definition add_new (acc : list gostring) (k : gostring) : list gostring := if existsb (fun e => seqb e k) acc then acc else acc ++ [k].
Definition firsts (l : list gostring) : list gostring := fold_left add_new l [].
Lemma firsts_snoc : forall l k, firsts (l ++ [k]) = add_new (firsts l) k.
Proof. intros l k. unfold firsts. now rewrite fold_left_app. Qed.
Lemma in_firsts : forall l k, In k (firsts l) <-> In k l.
Proof.
  intros l k. induction l as [|x l IH] using rev_ind; [easy|]. rewrite firsts_snoc, in_app_iff. unfold add_new.
  destruct (existsb (fun e => seqb e x) (firsts l)) eqn:E; [|rewrite in_app_iff, IH; easy]. rewrite IH. split; [now left|]. intros [I | [<- | []]]; [exact I|].
  apply existsb_exists in E as (y & I & E). apply seqb_eq in E as ->. now apply IH.
Qed.
Lemma in_firsts_fwd : forall l k, In k (firsts l) -> In k l.
Proof. intros l k. apply in_firsts. Qed.
Lemma firsts_order : forall l a b, before (firsts l) a b -> appears_first l a b.
Proof.
  intros l. induction l as [|x l IH] using rev_ind; intros a b B; [now apply before_nil in B|]. rewrite firsts_snoc in B. unfold add_new in B.
  assert (before (firsts l) a b -> appears_first (l ++ [x]) a b) as MON.
  { intros H. apply IH in H as (N & p & q & -> & NI). split; [exact N|]. exists p, (q ++ [x]). split; [|exact NI]. now rewrite <- app_assoc. }
  destruct (existsb (fun e => seqb e x) (firsts l)) eqn:E; [now apply MON|]. apply before_app in B as [B | [B | [I J]]].
  - now apply MON.
  - apply before_cons in B as [[_ []] | B]. now apply before_nil in B.
  - destruct J as [<- | []]. assert (~ In x l) as NX.
    { intros K. apply (in_firsts l x) in K. assert (existsb (fun e => seqb e x) (firsts l) = true); [|congruence]. apply existsb_exists. exists x. split; [exact K|apply seqb_refl']. }
    apply (in_firsts l a) in I. split; [intros ->; contradiction|]. apply in_split in I as (p & q & ->). exists p, (q ++ [x]). split; [now rewrite <- app_assoc|].
    intros K. apply NX. apply in_or_app. now left.
Qed.
Lemma appears_cons : forall A (l : list A) x a b, appears_first l a b -> x <> b -> appears_first (x :: l) a b.
Proof.
  intros A l x a b (N & p & q & -> & NI) NX. split; [exact N|]. exists (x :: p), q. split; [reflexivity|]. intros [-> | I]; contradiction.
Qed.
Lemma appears_filter : forall A (f : A -> bool) l a b, f b = true -> appears_first (filter f l) a b -> appears_first l a b.
Proof.
  intros A f l a b FB. induction l as [|x l IH]; cbn [filter]; [intros (_ & p & q & E & _); destruct p; discriminate|]. intros H.
  destruct (f x) eqn:E.
  - destruct H as (N & p & q & EQ & NI). destruct p as [|y p]; cbn [app] in EQ.
    + injection EQ as -> _. split; [exact N|]. now exists [], l.
    + injection EQ as -> EQ. apply appears_cons; [|intros ->; apply NI; now left]. apply IH. split; [exact N|]. exists p, q. split; [exact EQ|]. intros I. apply NI. now right.
  - apply appears_cons; [now apply IH|]. intros ->. congruence.
Qed.
(** the SQLs of a database *)
Definition of_db (db : gostring) (sp : list (gostring * gostring)) : list gostring := map snd (filter (fun e => seqb (fst e) db) sp).
Lemma appears_of_db : forall db sp a b, appears_first (of_db db sp) a b -> appears_first sp (db, a) (db, b).
Proof.
  intros db sp a b (N & p & q & E & NI). unfold of_db in E.
  apply appears_filter with (f := fun e => seqb (fst e) db); [cbn [fst]; apply seqb_refl'|].
  split; [congruence|]. apply map_eq_app in E as (p' & q' & E & E1 & E2). destruct q' as [|[db' a'] q']; [discriminate|]. cbn [map snd] in E2. injection E2 as -> E2.
  assert (db' = db) as ->. { assert (In (db', a) (filter (fun e => seqb (fst e) db) sp)) as I by (rewrite E; apply in_or_app; right; now left). apply filter_In in I as [_ I]. now apply seqb_eq in I. }
  exists p', q'. split; [exact E|]. intros I. apply NI. rewrite <- E1. apply (in_map snd) in I. exact I.
Qed.

(** ** The members of a ranking in the order of their creation *)
Section Created.
  Context (member : gostring -> gostring -> option bool) (targets : list gostring).
  Definition counts (db : gostring) : bool := includes targets db && negb (inherited db).
  Definition real (sql : gostring) : bool := negb (inherited sql).
  Definition inner_of (db : gostring) (props : list (gostring * list (gostring * rank))) : list (gostring * rank) :=
    match own db props with Some inner => inner | None => [] end.
  Definition created (props : list (gostring * list (gostring * rank))) (sd : list gostring) (sp : list (gostring * gostring)) : Prop :=
    map fst props = firsts (filter counts sd) /\
    (forall db, counts db = true -> map fst (inner_of db props) = firsts (filter real (of_db db sp))) /\
    (forall k p, entry_of props k = Some p -> rk_key p = k).
  Lemma put_keys' : forall V k (v : V) o, map fst (put k v o) = add_new (map fst o) k.
  Proof.
    intros V k v o. rewrite put_keys. unfold add_new. assert (existsb (fun e => seqb e k) (map fst o) = existsb (fun e => seqb (fst e) k) o) as ->; [|reflexivity].
    induction o as [|e o IH]; [reflexivity|]. cbn [map existsb]. now rewrite IH.
  Qed.
  Lemma own_key : forall V (o : list (gostring * V)) k, (exists v, own k o = Some v) <-> In k (map fst o).
  Proof.
    intros V o k. unfold own. split.
    - intros (v & H). destruct (find (fun e => seqb (fst e) k) o) as [e|] eqn:F; [|discriminate]. apply find_some in F as [I E]. apply seqb_eq in E as <-. now apply in_map.
    - intros I. apply in_map_iff in I as (e & <- & I). destruct (find (fun e0 => seqb (fst e0) (fst e)) o) as [e'|] eqn:F; [now exists (snd e')|].
      apply find_none with (x := e) in F; [|exact I]. rewrite seqb_refl' in F. discriminate.
  Qed.
  Lemma add_old : forall acc k, In k acc -> add_new acc k = acc.
  Proof.
    intros acc k I. unfold add_new. assert (existsb (fun e => seqb e k) acc = true) as ->; [|reflexivity]. apply existsb_exists. exists k. split; [exact I|apply seqb_refl'].
  Qed.
  Lemma of_db_app : forall db a b, of_db db (a ++ b) = of_db db a ++ of_db db b.
  Proof. intros db a b. unfold of_db. now rewrite filter_app, map_app. Qed.
  Lemma load_created : forall r db s l s' sd sp inner, created (rs_props s) sd sp -> counts db = true -> own db (rs_props s) = Some inner ->
    js_rank_load member r db s l = Ok s' -> created (rs_props s') sd (sp ++ [(db, sl_sql l)]) /\ exists inner', own db (rs_props s') = Some inner'.
  Proof.
    intros r db s l s' sd sp inner (C1 & C2 & C3) CD O E. unfold js_rank_load in E. rewrite O in E.
    assert (In db (map fst (rs_props s))) as ID by (apply own_key; now exists inner).
    assert (forall db', of_db db' [(db, sl_sql l)] = if seqb db db' then [sl_sql l] else []) as ONE.
    { intros db'. unfold of_db. cbn [filter fst]. destruct (seqb db db'); reflexivity. }
    assert (forall p, rk_key p = (db, sl_sql l) -> real (sl_sql l) = true ->
      created (put db (put (sl_sql l) p inner) (rs_props s)) sd (sp ++ [(db, sl_sql l)])) as STEP.
    { intros p KP RE. split; [|split].
      - rewrite put_keys', add_old; [exact C1|exact ID].
      - intros db' CD'. specialize (C2 db' CD'). rewrite of_db_app, ONE, filter_app. unfold inner_of in C2 |- *. rewrite own_put. destruct (seqb db db') eqn:ED.
        + apply seqb_eq in ED as <-. rewrite O in C2. rewrite put_keys', C2. cbn [filter]. rewrite RE. now rewrite firsts_snoc.
        + cbn [filter]. now rewrite app_nil_r.
      - intros k q. rewrite (entry_put _ _ _ _ _ _ O). destruct (keq (db, sl_sql l) k) eqn:K; [|apply C3]. apply keq_eq in K as <-. congruence. }
    assert (forall p, exists inner', own db (put db (put (sl_sql l) p inner) (rs_props s)) = Some inner') as OP.
    { intros p. rewrite own_put, seqb_refl'. now eexists. }
    assert (map fst inner = firsts (filter real (of_db db sp))) as IN. { specialize (C2 db CD). unfold inner_of in C2. now rewrite O in C2. }
    destruct (own (sl_sql l) inner) as [p|] eqn:OS.
    - injection E as <-. cbn [rs_props]. split; [|apply OP]. apply STEP.
      + change (rk_key p = (db, sl_sql l)). apply (C3 (db, sl_sql l)). unfold entry_of. cbn [fst snd]. now rewrite O.
      + assert (In (sl_sql l) (map fst inner)) as I by (apply own_key; now exists p). rewrite IN in I. apply in_firsts_fwd, filter_In in I. exact (proj2 I).
    - destruct (inherited (sl_sql l)) eqn:IH; injection E as <-.
      + split; [|now exists inner]. split; [exact C1|]. split; [|exact C3]. intros db' CD'. rewrite of_db_app, ONE, filter_app, C2; [|exact CD'].
        destruct (seqb db db'); cbn [filter]; [unfold real; rewrite IH; cbn [negb]|]; now rewrite app_nil_r.
      + cbn [rs_props]. split; [|apply OP]. apply STEP; [reflexivity|]. unfold real. now rewrite IH.
  Qed.
  Lemma loads_created : forall r db ls s s' sd sp inner, created (rs_props s) sd sp -> counts db = true -> own db (rs_props s) = Some inner ->
    ofold (js_rank_load member r db) ls s = Ok s' -> created (rs_props s') sd (sp ++ map (fun l => (db, sl_sql l)) ls).
  Proof.
    intros r db ls. induction ls as [|l ls IH]; intros s s' sd sp inner C CD O E; cbn [ofold map] in *.
    - injection E as <-. now rewrite app_nil_r.
    - destruct (js_rank_load member r db s l) as [s1|e|] eqn:E1; cbn [obind] in E; try discriminate.
      destruct (load_created _ _ _ _ _ _ _ _ C CD O E1) as (C' & inner' & O'). specialize (IH _ _ _ _ _ C' CD O' E). now rewrite <- app_assoc in IH.
  Qed.
  Lemma loads_same : forall r db ls s s', own db (rs_props s) = None -> ofold (js_rank_load member r db) ls s = Ok s' -> rs_props s' = rs_props s.
  Proof.
    intros r db ls. induction ls as [|l ls IH]; intros s s' O E; cbn [ofold] in E; [now injection E as <-|].
    destruct (js_rank_load member r db s l) as [s1|e|] eqn:E1; cbn [obind] in E; try discriminate.
    assert (rs_props s1 = rs_props s) as P.
    { unfold js_rank_load in E1. rewrite O in E1. destruct (own (sl_sql l) _); [congruence|].
      destruct (member db (sl_sql l)) as [[]|]; [discriminate|congruence|]. now injection E1 as <-. }
    rewrite <- P. apply IH; [congruence|exact E].
  Qed.
  Lemma skip_created : forall props sd sp db ls, created props sd sp -> counts db = false -> created props (sd ++ [db]) (sp ++ map (fun l : load => (db, sl_sql l)) ls).
  Proof.
    intros props sd sp db ls (C1 & C2 & C3) CD. split; [|split; [|exact C3]].
    - rewrite filter_app. cbn [filter]. now rewrite CD, app_nil_r.
    - intros db' CD'. rewrite of_db_app, C2; [|exact CD']. assert (of_db db' (map (fun l : load => (db, sl_sql l)) ls) = []) as ->; [|now rewrite app_nil_r].
      unfold of_db. induction ls as [|l ls IH]; [reflexivity|]. cbn [map filter fst]. destruct (seqb db db') eqn:E; [|exact IH]. apply seqb_eq in E as ->. congruence.
  Qed.
  Lemma db_created : forall r s x s' sd sp, created (rs_props s) sd sp -> js_rank_db member targets r s x = Ok s' ->
    created (rs_props s') (sd ++ [dl_name x]) (sp ++ map (fun l => (dl_name x, sl_sql l)) (dl_sqls x)).
  Proof.
    intros r s x s' sd sp C E. unfold js_rank_db in E. destruct (includes targets (dl_name x)) eqn:T.
    - destruct (inherited (dl_name x)) eqn:I.
      + assert (counts (dl_name x) = false) as CD by (unfold counts; now rewrite T, I).
        assert (own (dl_name x) (rs_props s) = None) as O.
        { destruct (own (dl_name x) (rs_props s)) as [inner|] eqn:O; [|reflexivity]. assert (In (dl_name x) (map fst (rs_props s))) as J by (apply own_key; now exists inner).
          destruct C as (C1 & _). rewrite C1 in J. apply in_firsts_fwd, filter_In in J as [_ J]. congruence. }
        rewrite O in E. rewrite (loads_same _ _ _ _ _ O E). now apply skip_created.
      + assert (counts (dl_name x) = true) as CD by (unfold counts; now rewrite T, I).
        assert (forall s1, created (rs_props s1) (sd ++ [dl_name x]) sp -> (exists inner, own (dl_name x) (rs_props s1) = Some inner) ->
          ofold (js_rank_load member r (dl_name x)) (dl_sqls x) s1 = Ok s' ->
          created (rs_props s') (sd ++ [dl_name x]) (sp ++ map (fun l => (dl_name x, sl_sql l)) (dl_sqls x))) as GO.
        { intros s1 C' (inner & O) E'. now apply loads_created with (r := r) (s := s1) (inner := inner). }
        destruct C as (C1 & C2 & C3). destruct (own (dl_name x) (rs_props s)) as [inner|] eqn:O.
        * apply (GO s); [|now exists inner|exact E]. split; [|split; [exact C2|exact C3]]. rewrite filter_app. cbn [filter]. rewrite CD, firsts_snoc, <- C1. symmetry. apply add_old. apply own_key. now exists inner.
        * eapply GO; [| |exact E]; cbn [rs_props]; [|exists []; rewrite own_put, seqb_refl'; reflexivity].
          split; [|split].
          -- rewrite put_keys', filter_app. cbn [filter]. now rewrite CD, firsts_snoc, C1.
          -- intros db' CD'. rewrite <- C2; [|exact CD']. unfold inner_of. rewrite own_put. destruct (seqb (dl_name x) db') eqn:ED; [|reflexivity]. apply seqb_eq in ED as <-. now rewrite O.
          -- intros [db' sql] p. unfold entry_of. cbn [fst snd]. rewrite own_put. destruct (seqb (dl_name x) db'); [discriminate|]. apply (C3 (db', sql)).
    - injection E as <-. apply skip_created; [exact C|]. unfold counts. now rewrite T.
  Qed.
  Lemma dbs_created : forall r xs s s' sd sp, created (rs_props s) sd sp -> ofold (js_rank_db member targets r) xs s = Ok s' ->
    created (rs_props s') (sd ++ map dl_name xs) (sp ++ flat_map (fun d => map (fun l => (dl_name d, sl_sql l)) (dl_sqls d)) xs).
  Proof.
    intros r xs. induction xs as [|x xs IH]; intros s s' sd sp C E; cbn [ofold map flat_map] in *; [injection E as <-; now rewrite !app_nil_r|].
    destruct (js_rank_db member targets r s x) as [s1|e|] eqn:E1; cbn [obind] in E; try discriminate.
    apply (db_created _ _ _ _ _ _ C) in E1. specialize (IH _ _ _ _ E1 E). now rewrite <- !app_assoc in IH.
  Qed.
  Lemma rows_created : forall rows s s' sd sp, created (rs_props s) sd sp -> ofold (js_rank_row member targets) rows s = Ok s' ->
    created (rs_props s') (sd ++ names_in rows) (sp ++ sqls_in rows).
  Proof.
    intros rows. unfold names_in, sqls_in. induction rows as [|r rows IH]; intros s s' sd sp C E; cbn [ofold flat_map] in *; [injection E as <-; now rewrite !app_nil_r|].
    destruct (js_rank_row member targets s r) as [s1|e|] eqn:E1; cbn [obind] in E; try discriminate.
    apply (dbs_created _ _ _ _ _ _ C) in E1. specialize (IH _ _ _ _ E1 E). now rewrite <- !app_assoc in IH.
  Qed.
  Lemma created_nil : created [] [] [].
  Proof. split; [reflexivity|]. split; [reflexivity|]. intros k p H. discriminate. Qed.

  Lemma member_first_mono : forall (c c' : gostring -> gostring -> Prop) a b, (c a b -> c' a b) -> member_first c a b -> member_first c' a b.
  Proof. intros c c' a b H [M | (M1 & M2 & M3)]; [now left|right]. split; [exact M1|]. split; [exact M2|]. now apply H. Qed.
  Lemma nodup_firsts : forall l, NoDup (firsts l).
  Proof.
    intros l. induction l as [|x l IH] using rev_ind; [constructor|]. rewrite firsts_snoc. unfold add_new. destruct (existsb (fun e => seqb e x) (firsts l)) eqn:E; [exact IH|].
    apply Permutation_NoDup with (x :: firsts l); [apply Permutation_cons_append|]. constructor; [|exact IH]. intros I.
    assert (existsb (fun e => seqb e x) (firsts l) = true); [|congruence]. apply existsb_exists. exists x. split; [exact I|apply seqb_refl'].
  Qed.
  Lemma props_order : forall props sd sp a b, created props sd sp -> before (all_props props) a b ->
    member_first (appears_first sd) (rk_db a) (rk_db b) \/
    (rk_db a = rk_db b /\ member_first (fun x y => appears_first sp (rk_db a, x) (rk_db a, y)) (rk_sql a) (rk_sql b)).
  Proof.
    intros props sd sp a b (C1 & C2 & C3) B. unfold all_props in B.
    assert (forall db inner sql p, own db props = Some inner -> own sql inner = Some p -> rk_db p = db /\ rk_sql p = sql) as KEY.
    { intros db inner sql p O O2. assert (rk_key p = (db, sql)) as K by (apply C3; unfold entry_of; cbn [fst snd]; now rewrite O). unfold rk_key in K. split; congruence. }
    apply before_flat_map in B as [(db & I & B) | (db & db' & B & I & J)].
    - right. destruct (own db props) as [inner|] eqn:O; [|now apply before_nil in B]. apply before_flat_map in B as [(sql & _ & B) | (x & y & B & I1 & I2)].
      + destruct (own sql inner); [|now apply before_nil in B]. apply before_cons in B as [[_ []] | B]. now apply before_nil in B.
      + destruct (own x inner) as [p|] eqn:O1; [|destruct I1]. destruct I1 as [<- | []]. destruct (own y inner) as [q|] eqn:O2; [|destruct I2]. destruct I2 as [<- | []].
        destruct (KEY _ _ _ _ O O1) as [-> ->], (KEY _ _ _ _ O O2) as [-> ->]. split; [reflexivity|].
        assert (counts db = true) as CD.
        { apply (Permutation_in _ (js_keys_perm _)) in I. rewrite C1 in I. apply in_firsts_fwd, filter_In in I. exact (proj2 I). }
        specialize (C2 db CD). unfold inner_of in C2. rewrite O in C2. rewrite C2 in B.
        pose proof (before_in _ _ _ _ B) as [_ IY]. apply (Permutation_in _ (js_keys_perm _)), in_firsts_fwd, filter_In in IY as [_ IY].
        apply js_keys_order in B; [|apply nodup_firsts]. revert B. apply member_first_mono. intros B. apply firsts_order in B.
        apply appears_filter in B; [|exact IY]. now apply appears_of_db.
    - left. destruct (own db props) as [inner|] eqn:O; [|destruct I]. destruct (own db' props) as [inner'|] eqn:O'; [|destruct J].
      apply in_flat_map in I as (x & _ & I), J as (y & _ & J). destruct (own x inner) as [p|] eqn:O1; [|destruct I]. destruct I as [<- | []].
      destruct (own y inner') as [q|] eqn:O2; [|destruct J]. destruct J as [<- | []]. destruct (KEY _ _ _ _ O O1) as [-> _], (KEY _ _ _ _ O' O2) as [-> _].
      rewrite C1 in B. pose proof (before_in _ _ _ _ B) as [_ IY]. apply (Permutation_in _ (js_keys_perm _)), in_firsts_fwd, filter_In in IY as [_ IY].
      apply js_keys_order in B; [|apply nodup_firsts]. revert B. apply member_first_mono. intros B. apply firsts_order in B. now apply appears_filter in B.
  Qed.
End Created.
