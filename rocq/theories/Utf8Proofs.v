(** Proofs about texts and their bytes. *)
From Coq Require Import String List NArith ZArith QArith Bool Lia Arith.
From Verif Require Import Base Json Utf8 Utf8Spec.
Import ListNotations.
Local Open Scope nat_scope.

Lemma within_iff : forall lo hi b, within lo hi b = true <-> (lo <= b /\ b <= hi)%N.
Proof. intros lo hi b. unfold within. now rewrite andb_true_iff, !N.leb_le. Qed.

(** ** One code point *)
Lemma rune_at_complete : forall c b r, char_bytes c b -> rune_at (b ++ r) = Some (c, length b).
Proof.
  intros c b r H. destruct H as [c L|c x y E Y L|c x y z E Y Z L SU|c x y z t E Y Z T L]; cbn [app rune_at length].
  - apply N.ltb_lt in L. now rewrite L.
  - destruct (N.ltb_spec (192 + x) 128) as [H|_]; [lia|]. assert (within 194 223 (192 + x) = true) as -> by (apply within_iff; lia).
    assert (within 128 191 (128 + y) = true) as -> by (apply within_iff; lia). f_equal. f_equal. lia.
  - destruct (N.ltb_spec (224 + x) 128) as [H|_]; [lia|].
    assert (within 194 223 (224 + x) = false) as ->. { destruct (within 194 223 (224 + x)) eqn:W; [|reflexivity]. apply within_iff in W. lia. }
    assert (within 224 239 (224 + x) = true) as -> by (apply within_iff; lia).
    assert (within (if N.eqb (224 + x) 224 then 160 else 128) (if N.eqb (224 + x) 237 then 159 else 191) (128 + y) = true) as ->.
    { apply within_iff. destruct (N.eqb_spec (224 + x) 224), (N.eqb_spec (224 + x) 237); lia. }
    assert (within 128 191 (128 + z) = true) as -> by (apply within_iff; lia). cbn [andb]. f_equal. f_equal. lia.
  - destruct (N.ltb_spec (240 + x) 128) as [H|_]; [lia|].
    assert (within 194 223 (240 + x) = false) as ->. { destruct (within 194 223 (240 + x)) eqn:W; [|reflexivity]. apply within_iff in W. lia. }
    assert (within 224 239 (240 + x) = false) as ->. { destruct (within 224 239 (240 + x)) eqn:W; [|reflexivity]. apply within_iff in W. lia. }
    assert (within 240 244 (240 + x) = true) as -> by (apply within_iff; lia).
    assert (within (if N.eqb (240 + x) 240 then 144 else 128) (if N.eqb (240 + x) 244 then 143 else 191) (128 + y) = true) as ->.
    { apply within_iff. destruct (N.eqb_spec (240 + x) 240), (N.eqb_spec (240 + x) 244); lia. }
    assert (within 128 191 (128 + z) = true) as -> by (apply within_iff; lia).
    assert (within 128 191 (128 + t) = true) as -> by (apply within_iff; lia). cbn [andb]. f_equal. f_equal. lia.
Qed.
Lemma rune_at_sound : forall s c w, rune_at s = Some (c, w) -> exists b r, s = b ++ r /\ char_bytes c b /\ length b = w.
Proof.
  intros s c w H. destruct s as [|b0 r]; [discriminate|]. unfold rune_at in H. destruct (N.ltb_spec b0 128) as [L|L].
  - exists [b0], r. split; [reflexivity|]. split; [|cbn [length]; congruence]. assert (c = b0) as -> by congruence. now constructor.
  - destruct (within 194 223 b0) eqn:W2; [|destruct (within 224 239 b0) eqn:W3; [|destruct (within 240 244 b0) eqn:W4; [|discriminate]]].
    + destruct r as [|b1 r]; [discriminate|]. destruct (within 128 191 b1) eqn:W; [|discriminate]. apply within_iff in W2, W.
      exists [b0; b1], r. split; [reflexivity|]. split; [|cbn [length]; congruence].
      assert (c = (b0 - 192) * 64 + (b1 - 128))%N as -> by congruence.
      replace [b0; b1] with [(192 + (b0 - 192))%N; (128 + (b1 - 128))%N] by (f_equal; [lia|f_equal; lia]). constructor; lia.
    + destruct r as [|b1 [|b2 r]]; try discriminate.
      destruct (within (if N.eqb b0 224 then 160 else 128) (if N.eqb b0 237 then 159 else 191) b1 && within 128 191 b2)%bool eqn:W; [|discriminate].
      apply andb_true_iff in W as [W W']. apply within_iff in W3, W, W'. exists [b0; b1; b2], r. split; [reflexivity|]. split; [|cbn [length]; congruence].
      assert (c = ((b0 - 224) * 64 + (b1 - 128)) * 64 + (b2 - 128))%N as -> by congruence.
      replace [b0; b1; b2] with [(224 + (b0 - 224))%N; (128 + (b1 - 128))%N; (128 + (b2 - 128))%N] by (f_equal; [lia|f_equal; [|f_equal; lia]]; destruct (N.eqb_spec b0 224); lia).
      constructor; destruct (N.eqb_spec b0 224), (N.eqb_spec b0 237); lia.
    + destruct r as [|b1 [|b2 [|b3 r]]]; try discriminate.
      destruct (within (if N.eqb b0 240 then 144 else 128) (if N.eqb b0 244 then 143 else 191) b1 && within 128 191 b2 && within 128 191 b3)%bool eqn:W; [|discriminate].
      apply andb_true_iff in W as [W W2']. apply andb_true_iff in W as [W W']. apply within_iff in W4, W, W', W2'. exists [b0; b1; b2; b3], r. split; [reflexivity|]. split; [|cbn [length]; congruence].
      assert (c = (((b0 - 240) * 64 + (b1 - 128)) * 64 + (b2 - 128)) * 64 + (b3 - 128))%N as -> by congruence.
      replace [b0; b1; b2; b3] with [(240 + (b0 - 240))%N; (128 + (b1 - 128))%N; (128 + (b2 - 128))%N; (128 + (b3 - 128))%N] by (f_equal; [lia|f_equal; [|f_equal; [|f_equal]; lia]]; destruct (N.eqb_spec b0 240); lia).
      constructor; destruct (N.eqb_spec b0 240), (N.eqb_spec b0 244); lia.
Qed.
Lemma char_bytes_nonempty : forall c b, char_bytes c b -> b <> [].
Proof. intros c b H. destruct H; discriminate. Qed.
Lemma char_bytes_inj : forall c b r c' b' r', char_bytes c b -> char_bytes c' b' -> b ++ r = b' ++ r' -> c = c' /\ b = b' /\ r = r'.
Proof.
  intros c b r c' b' r' H H' E. pose proof (rune_at_complete c b r H) as R. rewrite E, (rune_at_complete c' b' r' H') in R.
  injection R as -> L. split; [reflexivity|]. apply (f_equal (firstn (length b'))) in E as E1. rewrite L in E1 at 1. rewrite !firstn_app, !Nat.sub_diag, !firstn_all, !firstn_O, !app_nil_r in E1. subst b'.
  split; [reflexivity|]. now apply app_inv_head in E.
Qed.
Lemma char_bytes_scalar : forall c b, char_bytes c b -> scalar c.
Proof. intros c b H. unfold scalar. destruct H; lia. Qed.
Lemma encode_char : forall c, scalar c -> char_bytes c (encode_rune c).
Proof.
  intros c [L SU]. unfold encode_rune. destruct (N.ltb_spec c 128) as [L1|L1]; [now constructor|].
  assert (forall n, (n = n / 64 * 64 + n mod 64 /\ n mod 64 < 64)%N) as DM.
  { intros n. pose proof (N.div_mod n 64 ltac:(lia)). pose proof (N.mod_lt n 64 ltac:(lia)). lia. }
  destruct (DM c) as [D1 M1], (DM (c / 64)%N) as [D2 M2], (DM (c / 64 / 64)%N) as [D3 M3].
  destruct (N.ltb_spec c 2048) as [L2|L2]; [constructor; lia|].
  assert ((N.leb 1114112 c || (N.leb 55296 c && N.leb c 57343))%bool = false) as ->.
  { apply orb_false_iff. split; [apply N.leb_gt; lia|]. apply andb_false_iff. destruct (N.leb_spec 55296 c); [right; apply N.leb_gt; lia|now left]. }
  destruct (N.ltb_spec c 65536) as [L3|L3]; constructor; lia.
Qed.
Lemma char_bytes_fun : forall c b c' b', char_bytes c b -> char_bytes c' b' -> c = c' -> b = b'.
Proof.
  intros c b c' b' H H' EQ.
  destruct H as [c C|c x y E Y C|c x y z E Y Z C SU|c x y z t E Y Z T C]; destruct H' as [c' C'|c' x' y' E' Y' C'|c' x' y' z' E' Y' Z' C' SU'|c' x' y' z' t' E' Y' Z' T' C']; try lia.
  - congruence.
  - assert (x = x' /\ y = y') as [-> ->] by lia. reflexivity.
  - assert (x = x' /\ y = y' /\ z = z') as (-> & -> & ->) by lia. reflexivity.
  - assert (x = x' /\ y = y' /\ z = z' /\ t = t') as (-> & -> & -> & ->) by lia. reflexivity.
Qed.
Lemma encode_char_eq : forall c b, char_bytes c b -> encode_rune c = b.
Proof.
  intros c b H. pose proof (encode_char c (char_bytes_scalar c b H)) as H'. exact (char_bytes_fun _ _ _ _ H' H eq_refl).
Qed.

(** ** Texts *)
Lemma text_bytes_encode : forall t, Forall scalar t -> text_bytes t (encode t).
Proof. intros t H. induction H as [|c t H1 H2 IH]; cbn [encode flat_map]; constructor; [now apply encode_char|exact IH]. Qed.
Lemma text_bytes_scalar : forall t b, text_bytes t b -> Forall scalar t /\ b = encode t.
Proof.
  intros t b H. induction H as [|c b t bs H1 H2 [IH1 IH2]]; [now split|]. split; [constructor; [now apply char_bytes_scalar in H1|exact IH1]|].
  cbn [encode flat_map]. rewrite (encode_char_eq _ _ H1), IH2. reflexivity.
Qed.
Lemma text_bytes_app : forall t b u x, text_bytes t b -> text_bytes u x -> text_bytes (t ++ u) (b ++ x).
Proof. intros t b u x H K. induction H as [|c b t bs H1 H2 IH]; [exact K|]. cbn [app]. rewrite <- app_assoc. now constructor. Qed.
Lemma text_bytes_prefix : forall p pb, text_bytes p pb -> forall t z, text_bytes t (pb ++ z) -> exists u, t = p ++ u /\ text_bytes u z.
Proof.
  intros p pb H. induction H as [|c b p pb H1 H2 IH]; intros t z K; [now exists t|]. rewrite <- app_assoc in K.
  remember (b ++ pb ++ z) as q eqn:E. destruct K as [|c' b' t bs K1 K2].
  - symmetry in E. apply app_eq_nil in E as [E _]. now apply char_bytes_nonempty in H1.
  - destruct (char_bytes_inj _ _ _ _ _ _ K1 H1 E) as (-> & -> & ->). destruct (IH _ _ K2) as (u & -> & K). now exists u.
Qed.
Lemma text_bytes_nil : forall t, text_bytes t [] -> t = [].
Proof.
  intros t H. remember [] as q eqn:E. destruct H as [|c b t bs H1 H2]; [reflexivity|]. apply app_eq_nil in E as [E _]. now apply char_bytes_nonempty in H1.
Qed.
Lemma text_bytes_unique : forall t u b, text_bytes t b -> text_bytes u b -> t = u.
Proof.
  intros t u b H K. rewrite <- (app_nil_r b) in K. destruct (text_bytes_prefix _ _ H _ _ K) as (w & -> & W). apply text_bytes_nil in W as ->. now rewrite app_nil_r.
Qed.

(** ** Where code points begin *)
Definition inside (b : N) : Prop := (128 <= b < 192)%N.
Lemma char_bytes_shape : forall c b, char_bytes c b -> exists h l, b = h :: l /\ ~ inside h /\ Forall inside l.
Proof.
  intros c b H. unfold inside. destruct H as [c L|c x y E Y L|c x y z E Y Z L SU|c x y z t E Y Z T L]; do 2 eexists; (split; [reflexivity|]; split; [lia|]); repeat (constructor; [lia|]); constructor.
Qed.
Lemma text_bytes_cut : forall t a b, text_bytes t (a ++ b) -> match b with [] => True | h :: _ => ~ inside h end ->
  exists t1 t2, t = t1 ++ t2 /\ text_bytes t1 a /\ text_bytes t2 b.
Proof.
  intros t a b H. remember (a ++ b) as q eqn:E. revert a E. induction H as [|c cb t bs H1 H2 IH]; intros a E NB.
  - symmetry in E. apply app_eq_nil in E as [-> ->]. exists [], []. split; [reflexivity|]. split; constructor.
  - destruct (char_bytes_shape _ _ H1) as (h & l & -> & NH & IL). destruct a as [|x a].
    + cbn [app] in E. exists [], (c :: t). split; [reflexivity|]. split; [constructor|]. subst b. exact (tb_cons c (h :: l) t bs H1 H2).
    + cbn [app] in E. injection E as <- E.
      assert (exists a', a = l ++ a' /\ bs = a' ++ b) as (a' & -> & ->).
      { clear IH H1 H2. revert a E. induction IL as [|y l Y IL IHl]; intros a E; [now exists a|]. destruct a as [|z a]; cbn [app] in E.
        - subst b. contradiction.
        - injection E as <- E. destruct (IHl a E) as (a' & -> & ->). now exists a'. }
      destruct (IH a' eq_refl NB) as (t1 & t2 & -> & T1 & T2). exists (c :: t1), t2. split; [reflexivity|]. split; [|exact T2].
      exact (tb_cons c (h :: l) t1 a' H1 T1).
Qed.
Lemma text_bytes_head : forall p b z, text_bytes p b -> p <> [] -> match b ++ z with [] => True | h :: _ => ~ inside h end.
Proof.
  intros p b z H N. destruct H as [|c cb t bs H1 H2]; [congruence|]. destruct (char_bytes_shape _ _ H1) as (h & l & -> & NH & _). exact NH.
Qed.
Lemma contains_iff : forall p pb t tb, text_bytes p pb -> text_bytes t tb -> (part_of p t <-> part_of pb tb).
Proof.
  intros p pb t tb P T. split.
  - intros (a & z & ->). apply text_bytes_scalar in T as [F ->], P as [_ ->]. exists (encode a), (encode z). unfold encode. now rewrite !flat_map_app.
  - intros (a & z & ->). destruct p as [|c p]; [exists t, []; now rewrite app_nil_r|].
    destruct (text_bytes_cut t a (pb ++ z) T) as (t1 & t2 & -> & T1 & T2); [apply text_bytes_head with (c :: p); [exact P|discriminate]|].
    destruct (text_bytes_prefix _ _ P _ _ T2) as (u & -> & U). now exists t1, u.
Qed.
Lemma starts_iff : forall p pb t tb, text_bytes p pb -> text_bytes t tb -> (starts p t <-> starts pb tb).
Proof.
  intros p pb t tb P T. split.
  - intros (z & ->). apply text_bytes_scalar in T as [F ->], P as [_ ->]. exists (encode z). unfold encode. now rewrite !flat_map_app.
  - intros (z & ->). destruct (text_bytes_prefix _ _ P _ _ T) as (u & -> & U). now exists u.
Qed.
Lemma finishes_iff : forall p pb t tb, text_bytes p pb -> text_bytes t tb -> (finishes p t <-> finishes pb tb).
Proof.
  intros p pb t tb P T. split.
  - intros (a & ->). apply text_bytes_scalar in T as [F ->], P as [_ ->]. exists (encode a). unfold encode. now rewrite !flat_map_app.
  - intros (a & ->). destruct p as [|c p]; [exists t; now rewrite app_nil_r|].
    destruct (text_bytes_cut t a pb T) as (t1 & t2 & -> & T1 & T2); [rewrite <- (app_nil_r pb); apply text_bytes_head with (c :: p); [exact P|discriminate]|].
    rewrite (text_bytes_unique _ _ _ T2 P). now exists t1.
Qed.

(** ** Order *)
Lemma sltb_lex : forall a b, sltb a b = true <-> lex_less a b.
Proof.
  intros a. induction a as [|x a IH]; intros b; (destruct b as [|y b]; cbn [sltb]).
  - split; [discriminate|]. intros H. inversion H.
  - split; [constructor|reflexivity].
  - split; [discriminate|]. intros H. inversion H.
  - destruct (N.eqb_spec x y) as [-> | NE].
    + rewrite IH. split; [now constructor|]. intros H. inversion H; [lia|assumption].
    + rewrite N.ltb_lt. split; [now constructor|]. intros H. inversion H; [assumption|congruence].
Qed.
Lemma char_order : forall c b r c' b' r', char_bytes c b -> char_bytes c' b' -> (c < c')%N -> lex_less (b ++ r) (b' ++ r').
Proof.
  intros c b r c' b' r' H H' L.
  assert (forall x y s t, (x < y)%N \/ (x = y /\ lex_less s t) -> lex_less (x :: s) (y :: t)) as GO.
  { intros x y s t [K | [-> K]]; [now apply ll_here|now apply ll_next]. }
  destruct H as [c C|c x y E Y C|c x y z E Y Z C SU|c x y z t E Y Z T C]; destruct H' as [c' C'|c' x' y' E' Y' C'|c' x' y' z' E' Y' Z' C' SU'|c' x' y' z' t' E' Y' Z' T' C']; cbn [app];
    try (apply ll_here; lia); try lia.
  - apply GO. destruct (N.lt_ge_cases x x'); [left; lia|right; split; [lia|]]. apply ll_here. lia.
  - apply GO. destruct (N.lt_ge_cases x x'); [left; lia|right; split; [lia|]]. apply GO. destruct (N.lt_ge_cases y y'); [left; lia|right; split; [lia|]]. apply ll_here. lia.
  - apply GO. destruct (N.lt_ge_cases x x'); [left; lia|right; split; [lia|]]. apply GO. destruct (N.lt_ge_cases y y'); [left; lia|right; split; [lia|]].
    apply GO. destruct (N.lt_ge_cases z z'); [left; lia|right; split; [lia|]]. apply ll_here. lia.
Qed.
Lemma lex_app : forall p a b, lex_less a b -> lex_less (p ++ a) (p ++ b).
Proof. intros p a b H. induction p as [|c p IH]; [exact H|]. cbn [app]. now constructor. Qed.
Lemma order_keeps : forall a b, lex_less a b -> forall x y, text_bytes a x -> text_bytes b y -> lex_less x y.
Proof.
  intros a b H. induction H as [c s|c d s t L|c s t H IH]; intros x y X Y.
  - inversion X; subst. remember (c :: s) as q eqn:E. destruct Y as [|c' b' t bs Y1 Y2]; [discriminate|]. destruct b' as [|h l]; [now apply char_bytes_nonempty in Y1|]. cbn [app]. constructor.
  - remember (c :: s) as q eqn:E. destruct X as [|c1 b1 t1 bs1 X1 X2]; [discriminate|]. injection E as -> ->.
    remember (d :: t) as q eqn:E. destruct Y as [|c2 b2 t2 bs2 Y1 Y2]; [discriminate|]. injection E as -> ->. now apply char_order with c d.
  - remember (c :: s) as q eqn:E. destruct X as [|c1 b1 t1 bs1 X1 X2]; [discriminate|]. injection E as -> ->.
    remember (c :: t) as q eqn:E. destruct Y as [|c2 b2 t2 bs2 Y1 Y2]; [discriminate|]. injection E as -> ->.
    rewrite <- (encode_char_eq _ _ X1), <- (encode_char_eq _ _ Y1). apply lex_app. now apply IH.
Qed.
Lemma lex_total : forall a b, lex_less a b \/ a = b \/ lex_less b a.
Proof.
  intros a. induction a as [|x a IH]; intros [|y b]; [auto|left; constructor|right; right; constructor|].
  destruct (N.lt_total x y) as [L | [-> | L]]; [left; now constructor| |right; right; now constructor].
  destruct (IH b) as [H | [-> | H]]; [left; now constructor|auto|right; right; now constructor].
Qed.
Lemma lex_asym : forall a b, lex_less a b -> lex_less b a -> False.
Proof. intros a b H. induction H as [c s|c d s t L|c s t H IH]; intros K; inversion K; subst; try lia. now apply IH. Qed.
Lemma order_iff : forall a b x y, text_bytes a x -> text_bytes b y -> (lex_less a b <-> lex_less x y).
Proof.
  intros a b x y X Y. split; [intros H; now apply (order_keeps a b)|]. intros H. destruct (lex_total a b) as [L | [-> | L]]; [exact L| |].
  - apply text_bytes_scalar in X as [_ ->], Y as [_ ->]. destruct (lex_asym _ _ H H).
  - destruct (lex_asym _ _ H (order_keeps _ _ L _ _ Y X)).
Qed.

(** ** Length and splitting *)
Lemma length_bytes : forall t b, text_bytes t b -> byte_len t = length b.
Proof.
  intros t b H. induction H as [|c b t bs H1 H2 IH]; [reflexivity|]. cbn [byte_len]. rewrite app_length, IH. f_equal. unfold rune_len.
  destruct H1 as [c C|c x y E Y C|c x y z E Y Z C SU|c x y z t' E Y Z T C]; cbn [length]; destruct (N.ltb_spec c 128), (N.ltb_spec c 2048), (N.ltb_spec c 65536); lia.
Qed.
Lemma split_high : forall sep l s, Forall (fun b => (128 <= b)%N) l -> (sep < 128)%N -> forall h r, split sep s = h :: r -> split sep (l ++ s) = (l ++ h) :: r.
Proof.
  intros sep l s F L. induction F as [|x l X F IH]; intros h r E; [exact E|]. cbn [app split]. destruct (N.eqb_spec x sep); [lia|]. now rewrite (IH _ _ E).
Qed.
Lemma split_nonempty : forall sep s, exists h r, split sep s = h :: r.
Proof.
  intros sep s. destruct s as [|c s]; cbn [split]; [now exists [], []|]. destruct (N.eqb c sep); [now exists [], (split sep s)|]. destruct (split sep s) as [|h r]; [now exists [c], []|now exists (c :: h), r].
Qed.
Lemma split_bytes : forall sep t b, (sep < 128)%N -> text_bytes t b -> Forall2 text_bytes (split sep t) (split sep b).
Proof.
  intros sep t b L H. induction H as [|c b t bs H1 H2 IH]; [constructor; [constructor|constructor]|].
  destruct (split_nonempty sep t) as (h & r & E). destruct (split_nonempty sep bs) as (h' & r' & E'). rewrite E, E' in IH. inversion IH as [|x y l l' I1 I2]; subst.
  cbn [split]. rewrite E. destruct (N.ltb_spec c 128) as [C|C].
  - assert (b = [c]) as ->. { rewrite <- (encode_char_eq _ _ H1). unfold encode_rune. apply N.ltb_lt in C. now rewrite C. }
    cbn [app split]. rewrite E'. destruct (N.eqb c sep); [constructor; [constructor|exact IH]|]. constructor; [|exact I2]. exact (tb_cons c [c] h h' H1 I1).
  - destruct (N.eqb_spec c sep); [lia|]. assert (Forall (fun x => (128 <= x)%N) b) as F.
    { destruct H1; try lia; repeat (constructor; [lia|]); constructor. }
    rewrite (split_high sep b bs F L h' r' E'). constructor; [|exact I2]. now constructor.
Qed.

(** ** Any bytes *)
Lemma skipn_app_len : forall A (b r : list A), skipn (length b) (b ++ r) = r.
Proof. intros A b r. rewrite skipn_app, Nat.sub_diag, skipn_all, skipn_O. reflexivity. Qed.
Lemma firstn_app_len : forall A (b r : list A), firstn (length b) (b ++ r) = b.
Proof. intros A b r. rewrite firstn_app, Nat.sub_diag, firstn_all, firstn_O, app_nil_r. reflexivity. Qed.
(** what a step of the scan is *)
Inductive scanned : list N -> list (list N * option N) -> Prop :=
| sc_nil : scanned [] []
| sc_char : forall c b bs l, char_bytes c b -> scanned bs l -> scanned (b ++ bs) ((b, Some c) :: l)
| sc_other : forall b bs l, (forall c x y, char_bytes c x -> b :: bs <> x ++ y) -> scanned bs l -> scanned (b :: bs) (([b], None) :: l).
Lemma scan_n_scanned : forall n s, length s <= n -> scanned s (scan_n n s).
Proof.
  intros n. induction n as [|n IH]; intros s L; destruct s as [|b r]; cbn [length] in L; try lia; cbn [scan_n]; try constructor.
  destruct (rune_at (b :: r)) as [[c w]|] eqn:R.
  - apply rune_at_sound in R as (cb & rest & E & CB & <-). rewrite E, skipn_app_len, firstn_app_len. constructor; [exact CB|]. apply IH.
    pose proof (char_bytes_nonempty _ _ CB) as NE. apply (f_equal (@length N)) in E. rewrite app_length in E. cbn [length] in E. destruct cb; [congruence|]. cbn [length] in E. lia.
  - constructor; [|apply IH; lia]. intros c x y CX E. rewrite E, (rune_at_complete _ _ _ CX) in R. discriminate.
Qed.
Lemma scan_scanned : forall s, scanned s (scan s).
Proof. intros s. apply scan_n_scanned. apply le_n. Qed.
Lemma decode_repaired : forall s, repaired s (decode s).
Proof.
  intros s. unfold decode. pose proof (scan_scanned s) as H. induction H as [|c b bs l H1 H2 IH|b bs l H1 H2 IH]; cbn [map snd].
  - constructor.
  - now constructor.
  - now apply rp_other.
Qed.
Lemma repaired_unique : forall s t u, repaired s t -> repaired s u -> t = u.
Proof.
  intros s t u H. revert u. induction H as [|c b bs t H1 H2 IH|b bs t H1 H2 IH]; intros u K.
  - remember [] as q eqn:E. destruct K as [|c b bs t K1 K2|b bs t K1 K2]; [reflexivity| |discriminate]. apply app_eq_nil in E as [E _]. now apply char_bytes_nonempty in K1.
  - remember (b ++ bs) as q eqn:E. destruct K as [|c' b' bs' t' K1 K2|b' bs' t' K1 K2].
    + symmetry in E. apply app_eq_nil in E as [E _]. now apply char_bytes_nonempty in H1.
    + destruct (char_bytes_inj _ _ _ _ _ _ K1 H1 E) as (-> & -> & ->). f_equal. now apply IH.
    + elim (K1 c b bs H1). exact E.
  - remember (b :: bs) as q eqn:E. destruct K as [|c' b' bs' t' K1 K2|b' bs' t' K1 K2].
    + discriminate.
    + elim (H1 c' b' bs' K1). now symmetry.
    + injection E as -> ->. f_equal. now apply IH.
Qed.
Lemma text_repaired : forall t b, text_bytes t b -> repaired b t.
Proof. intros t b H. induction H as [|c b t bs H1 H2 IH]; now constructor. Qed.
Lemma repaired_text : forall b t, repaired b t -> ~ (exists u, text_bytes u b) -> In 65533%N t.
Proof.
  intros b t H. induction H as [|c b bs t H1 H2 IH|b bs t H1 H2 IH]; intros N.
  - elim N. exists []. constructor.
  - right. apply IH. intros (u & U). apply N. exists (c :: u). now constructor.
  - now left.
Qed.
Lemma repaired_scalar : forall b t, repaired b t -> Forall scalar t.
Proof.
  intros b t H. induction H as [|c b bs t H1 H2 IH|b bs t H1 H2 IH]; constructor; try assumption; [now apply char_bytes_scalar in H1|]. unfold scalar. lia.
Qed.
