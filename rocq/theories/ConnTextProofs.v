(** Proofs about connection texts. *)
From Coq Require Import String List NArith Bool Lia Arith.
From Verif Require Import Base ConnText ConnTextSpec.
Import ListNotations.

(** ** Reading settings *)
Definition settings_from (st : reading) (s : gostring) : option (list (gostring * gostring)) :=
  match read_text st s with
  | None => None
  | Some (st', l) => match read_end st' with None => None | Some l' => Some (l ++ l') end
  end.
Lemma read_text_app : forall a b st, read_text st (a ++ b) =
    match read_text st a with
    | None => None
    | Some (st', l) => match read_text st' b with None => None | Some (st'', l') => Some (st'', l ++ l') end
    end.
Proof.
  induction a as [|c a IH]; intros b st; cbn [app read_text].
  - destruct (read_text st b) as [[st'' l']|]; reflexivity.
  - destruct (read_char st c) as [[st' l]|]; [|reflexivity]. rewrite IH. destruct (read_text st' a) as [[st1 l1]|]; [|reflexivity].
    destruct (read_text st1 b) as [[st2 l2]|]; [|reflexivity]. now rewrite app_assoc.
Qed.
Lemma settings_from_app : forall a b st, settings_from st (a ++ b) =
    match read_text st a with
    | None => None
    | Some (st', l) => option_map (app l) (settings_from st' b)
    end.
Proof.
  intros a b st. unfold settings_from. rewrite read_text_app. destruct (read_text st a) as [[st' l]|]; [|reflexivity].
  destruct (read_text st' b) as [[st'' l']|]; [|reflexivity]. destruct (read_end st''); [|reflexivity]. simpl. now rewrite app_assoc.
Qed.
Lemma read_quoted : forall v k acc, unescaped v -> read_text (Quoted k acc) v = Some (Quoted k (acc ++ v), []).
Proof.
  induction v as [|c v IH]; intros k acc [H1 H2]; cbn [read_text]; [now rewrite app_nil_r|]. unfold read_char.
  destruct (N.eqb_spec c 39) as [->|]; [exfalso; apply H1; now left|]. destruct (N.eqb_spec c 92) as [->|]; [exfalso; apply H2; now left|].
  rewrite IH; [|split; intros C; [apply H1|apply H2]; now right]. now rewrite <- app_assoc.
Qed.
(** the value read in quotes and the text after it *)
Fixpoint quoted (esc : bool) (acc s : gostring) : option (gostring * gostring) :=
  match s with
  | [] => None
  | c :: s' =>
      if esc then quoted false (acc ++ [c]) s'
      else if N.eqb c 39 then Some (acc, s')
      else if N.eqb c 92 then quoted true acc s'
      else quoted false (acc ++ [c]) s'
  end.
Lemma settings_quoted : forall s k acc (esc : bool),
    settings_from (if esc then Quoted_escape k acc else Quoted k acc) s =
    match quoted esc acc s with None => None | Some (v, r) => option_map (cons (k, v)) (settings_from Start r) end.
Proof.
  induction s as [|c s IH]; intros k acc esc; [now destruct esc|]. change (c :: s) with ([c] ++ s). rewrite settings_from_app. cbn [app quoted].
  destruct esc.
  - cbn [read_text read_char]. rewrite <- (IH k (acc ++ [c]) false). cbn [app]. now destruct (settings_from _ s).
  - cbn [read_text read_char]. destruct (N.eqb c 39).
    + cbn [app]. now destruct (settings_from Start s).
    + destruct (N.eqb c 92).
      * cbn [app]. rewrite <- (IH k acc true). now destruct (settings_from _ s).
      * cbn [app]. rewrite <- (IH k (acc ++ [c]) false). now destruct (settings_from _ s).
Qed.
Lemma quoted_grows : forall s esc acc v r, quoted esc acc s = Some (v, r) -> exists x, v = acc ++ x.
Proof.
  induction s as [|c s IH]; intros esc acc v r H; [discriminate|]. cbn [quoted] in H. destruct esc.
  - apply IH in H. destruct H as [x ->]. exists (c :: x). now rewrite <- app_assoc.
  - destruct (N.eqb c 39); [injection H as <- <-; exists []; now rewrite app_nil_r|]. destruct (N.eqb c 92).
    + now apply IH in H.
    + apply IH in H. destruct H as [x ->]. exists (c :: x). now rewrite <- app_assoc.
Qed.
Lemma quoted_first : forall n pre, length pre <= n -> forall acc post v r, ~ In 39%N pre -> quoted false acc (pre ++ 39%N :: post) = Some (v, r) ->
    (exists d, v = acc ++ d /\ r = post /\ length d <= length pre /\ (length d = length pre -> d = pre /\ ~ In 92%N pre)) \/
    (exists d x, v = acc ++ d ++ 39%N :: x /\ length d < length pre /\ ~ In 39%N d).
Proof.
  induction n as [|n IH]; intros pre L acc post v r N H.
  - destruct pre; [|simpl in L; lia]. cbn [app quoted] in H. change (39 =? 39)%N with true in H. cbv iota in H. injection H as <- <-.
    left. exists []. rewrite app_nil_r. split; [reflexivity|]. split; [reflexivity|]. split; [lia|]. intros _. split; [reflexivity|intros []].
  - destruct pre as [|c pre].
    + cbn [app quoted] in H. change (39 =? 39)%N with true in H. cbv iota in H. injection H as <- <-.
      left. exists []. rewrite app_nil_r. split; [reflexivity|]. split; [reflexivity|]. split; [lia|]. intros _. split; [reflexivity|intros []].
    + cbn [app quoted] in H. destruct (N.eqb_spec c 39) as [->|Nc]; [exfalso; apply N; now left|].
      assert (N' : ~ In 39%N pre) by (intros C; apply N; now right). simpl in L. destruct (N.eqb_spec c 92) as [->|Nb].
      * destruct pre as [|c2 pre].
        -- cbn [app quoted] in H. apply quoted_grows in H. destruct H as [x ->]. right. exists [], x.
           split; [now rewrite <- app_assoc|]. split; [simpl; lia|intros []].
        -- cbn [app quoted] in H. apply IH in H; [|simpl in L; lia|intros C; apply N'; now right].
           destruct H as [(d & -> & -> & Ld & _)|(d & x & -> & Ld & Nd)].
           ++ left. exists (c2 :: d). split; [now rewrite <- app_assoc|]. split; [reflexivity|]. simpl. split; [lia|lia].
           ++ right. exists (c2 :: d), x. split; [now rewrite <- app_assoc|]. split; [simpl; lia|].
              intros [->|C]; [apply N'; now left|contradiction].
      * apply IH in H; [|lia|exact N']. destruct H as [(d & -> & -> & Ld & Hd)|(d & x & -> & Ld & Nd)].
        -- left. exists (c :: d). split; [now rewrite <- app_assoc|]. split; [reflexivity|]. split; [simpl; lia|].
           intros E. simpl in E. destruct Hd as [-> Nd]; [lia|]. split; [reflexivity|]. intros [->|C]; [congruence|contradiction].
        -- right. exists (c :: d), x. split; [now rewrite <- app_assoc|]. split; [simpl; lia|]. intros [->|C]; [congruence|contradiction].
Qed.
Lemma mark_unique : forall (m : rune) a b a' b', ~ In m a -> ~ In m a' -> a ++ m :: b = a' ++ m :: b' -> a = a' /\ b = b'.
Proof.
  intros m. induction a as [|x a IH]; intros b a' b' H H' E; destruct a' as [|y a']; cbn [app] in E; inversion E; subst; auto.
  - exfalso. apply H'. now left.
  - exfalso. apply H. now left.
  - destruct (IH b a' b') as [-> ->]; auto; intros C; [apply H|apply H']; now right.
Qed.
Lemma first_split : forall (m : rune) s, ~ In m s \/ exists a b, s = a ++ m :: b /\ ~ In m a.
Proof.
  induction s as [|c s IH]; [left; intros []|]. destruct (N.eq_dec c m) as [->|N].
  - right. exists [], s. split; [reflexivity|intros []].
  - destruct IH as [IH|(a & b & -> & IH)]; [left; intros [C|C]; [congruence|contradiction]|].
    right. exists (c :: a), b. split; [reflexivity|]. intros [C|C]; [congruence|contradiction].
Qed.
(** A quoted text yields itself only without quote and backslash. *)
Lemma quoted_exact : forall v more r, quoted false [] (v ++ 39%N :: more) = Some (v, r) -> unescaped v /\ r = more.
Proof.
  intros v more r H. destruct (first_split 39 v) as [N|(a & b & E & N)].
  - pose proof (quoted_first (length v) v (le_n _) [] more v r N H) as [(d & E & -> & L & Hd)|(d & x & E & L & Nd)]; cbn [app] in E.
    + subst d. destruct (Hd eq_refl) as [_ Nb]. split; [now split|reflexivity].
    + exfalso. apply N. rewrite E. apply in_or_app. right. now left.
  - exfalso. rewrite E in H. rewrite <- app_assoc in H. cbn [app] in H. rewrite <- E in H.
    pose proof (quoted_first (length a) a (le_n _) [] _ v r N H) as [(d & E' & _ & L & _)|(d & x & E' & L & Nd)]; cbn [app] in E'.
    + subst d. rewrite E in L. rewrite app_length in L. simpl in L. lia.
    + rewrite E in E'. apply mark_unique in E'; [|exact N|exact Nd]. destruct E' as [-> _]. lia.
Qed.

(** ** The connection string *)
Definition field (kv : gostring * gostring) : gostring := fst kv ++ lit "='" ++ snd kv ++ lit "'".
Definition good_key (k : gostring) : Prop := read_text Start (k ++ lit "='") = Some (Quoted k [], []).
Lemma join_last : forall sep xs z, join sep (xs ++ [z]) = concat (map (fun x => x ++ sep) xs) ++ z.
Proof.
  induction xs as [|x xs IH]; intros z; [reflexivity|]. cbn [app map concat]. rewrite <- app_assoc, <- IH.
  destruct xs as [|y xs]; cbn [app join]; now rewrite <- app_assoc.
Qed.
Lemma kv_fields : forall k v, kv k v = map field (filter (fun kv => match snd kv with [] => false | _ => true end) [(k, v)]).
Proof. intros k [|c v]; reflexivity. Qed.
Definition tail_text (p : gostring) : gostring := match p with [] => lit "sslmode=disable" | _ => p ++ lit " sslmode=disable" end.
Lemma kv_text : forall c, kv_connection_string c = concat (map (fun kv => field kv ++ lit " ") (set_fields c)) ++ tail_text (pg_param_text c).
Proof.
  intros c. unfold kv_connection_string. rewrite !kv_fields. rewrite !app_assoc. rewrite join_last. rewrite <- !app_assoc.
  rewrite !map_app, !concat_app. unfold set_fields. 
  replace (filter (fun kv => match snd kv with [] => false | _ => true end)
    [(lit "user", pg_user c); (lit "password", pg_password c); (lit "host", pg_host c); (lit "port", pg_port c); (lit "dbname", pg_dbname c)])
    with (filter (fun kv : gostring * gostring => match snd kv with [] => false | _ => true end) [(lit "user", pg_user c)] ++
          filter (fun kv => match snd kv with [] => false | _ => true end) [(lit "password", pg_password c)] ++
          filter (fun kv => match snd kv with [] => false | _ => true end) [(lit "host", pg_host c)] ++
          filter (fun kv => match snd kv with [] => false | _ => true end) [(lit "port", pg_port c)] ++
          filter (fun kv => match snd kv with [] => false | _ => true end) [(lit "dbname", pg_dbname c)])
    by (rewrite <- !filter_app; reflexivity).
  rewrite !map_app, !concat_app, !map_map. rewrite <- !app_assoc. do 5 f_equal.
  unfold tail_text. destruct (pg_param_text c) as [|x p]; [reflexivity|]. cbn [map concat]. rewrite app_nil_r, <- app_assoc. reflexivity.
Qed.
Lemma set_fields_keys : forall c k v, In (k, v) (set_fields c) -> good_key k.
Proof.
  intros c k v H. unfold set_fields in H. apply filter_In in H. destruct H as [H _]. simpl in H.
  repeat (destruct H as [H|H]; [injection H as <- <-; vm_compute; reflexivity|]). destruct H.
Qed.
Lemma field_settings : forall k v s, good_key k -> settings_from Start ((field (k, v) ++ lit " ") ++ s) =
    match quoted false [] (v ++ 39%N :: lit " " ++ s) with None => None | Some (v', r) => option_map (cons (k, v')) (settings_from Start r) end.
Proof.
  intros k v s H. unfold field. cbn [fst snd]. replace (((k ++ lit "='" ++ v ++ lit "'") ++ lit " ") ++ s) with ((k ++ lit "='") ++ (v ++ 39%N :: lit " " ++ s)) by (now rewrite <- !app_assoc).
  rewrite settings_from_app, H. rewrite <- (settings_quoted _ k [] false). now destruct (settings_from _ _).
Qed.
Lemma settings_space : forall s, settings_from Start (32%N :: s) = settings_from Start s.
Proof. intros s. change (32%N :: s) with ([32%N] ++ s). rewrite settings_from_app. cbn. now destruct (settings_from Start s). Qed.
Lemma quoted_unescaped : forall v acc s, unescaped v -> quoted false acc (v ++ 39%N :: s) = Some (acc ++ v, s).
Proof.
  induction v as [|c v IH]; intros acc s [H1 H2]; cbn [app quoted]; [now rewrite app_nil_r|].
  destruct (N.eqb_spec c 39) as [->|]; [exfalso; apply H1; now left|]. destruct (N.eqb_spec c 92) as [->|]; [exfalso; apply H2; now left|].
  rewrite IH; [|split; intros C; [apply H1|apply H2]; now right]. now rewrite <- app_assoc.
Qed.
Lemma fields_forward : forall l s, (forall k v, In (k, v) l -> good_key k) -> (forall k v, In (k, v) l -> unescaped v) ->
    settings_from Start (concat (map (fun kv => field kv ++ lit " ") l) ++ s) = option_map (app l) (settings_from Start s).
Proof.
  induction l as [|[k v] l IH]; intros s HK HV; [cbn; now destruct (settings_from Start s)|]. cbn [map concat]. rewrite <- app_assoc.
  rewrite field_settings by (apply (HK k v); now left). rewrite quoted_unescaped by (apply (HV k v); now left). cbn [app].
  change (lit " ") with [32%N]. cbn [app]. rewrite settings_space. change [32%N] with (lit " ").
  rewrite IH; [|intros; eapply HK; right; eassumption|intros; eapply HV; right; eassumption]. now destruct (settings_from Start s).
Qed.
Lemma fields_backward : forall l s rest, (forall k v, In (k, v) l -> good_key k) ->
    settings_from Start (concat (map (fun kv => field kv ++ lit " ") l) ++ s) = Some (l ++ rest) ->
    (forall k v, In (k, v) l -> unescaped v) /\ settings_from Start s = Some rest.
Proof.
  induction l as [|[k v] l IH]; intros s rest HK H; [split; [intros k v []|exact H]|]. cbn [map concat] in H. rewrite <- app_assoc in H.
  rewrite field_settings in H by (apply (HK k v); now left). set (t := concat _ ++ s) in *.
  destruct (quoted false [] (v ++ 39%N :: lit " " ++ t)) as [[v' r]|] eqn:E; [|discriminate].
  destruct (settings_from Start r) as [l'|] eqn:ER; [|discriminate]. cbn [option_map app] in H. injection H as -> El.
  apply quoted_exact in E. destruct E as [U ->]. change (lit " " ++ t) with (32%N :: t) in ER. rewrite settings_space in ER. unfold t in ER. subst l'.
  apply IH in ER; [|intros; eapply HK; right; eassumption]. destruct ER as [HV HS]. split; [|exact HS].
  intros k0 v0 [X|X]; [injection X as <- <-; exact U|eapply HV; exact X].
Qed.
Lemma ssl_settings : settings (lit "sslmode=disable") = Some [(lit "sslmode", lit "disable")].
Proof. vm_compute. reflexivity. Qed.
Lemma tail_settings : forall p l, complete p l -> settings_from Start (p ++ lit " sslmode=disable") = Some (l ++ [(lit "sslmode", lit "disable")]).
Proof.
  intros p l [H N]. unfold settings in H. rewrite settings_from_app. destruct (read_text Start p) as [[st l0]|]; [|discriminate].
  destruct (read_end st) as [l1|] eqn:E; [|discriminate]. injection H as <-.
  destruct st; try discriminate; try (destruct N; fail); cbn [read_end] in E; injection E as <-.
  - rewrite app_nil_r. reflexivity.
  - change (lit " sslmode=disable") with ([32%N] ++ lit "sslmode=disable"). rewrite settings_from_app. cbn [read_text read_char].
    change (uspace 32) with true. cbv iota. cbn [app].
    change (settings_from Start (lit "sslmode=disable")) with (settings (lit "sslmode=disable")). rewrite ssl_settings. cbn [option_map app]. now rewrite <- app_assoc.
Qed.
Lemma setting_app : forall l l' k, setting (l ++ l') k = match setting l' k with Some v => Some v | None => setting l k end.
Proof.
  induction l as [|[k0 v0] l IH]; intros l' k; cbn [app setting]; [now destruct (setting l' k)|]. rewrite IH. now destruct (setting l' k).
Qed.

(** ** DSN *)
Lemma last_mark : forall (m : rune) a b a' b', ~ In m b -> a ++ m :: b = a' ++ m :: b' ->
    length b <= length b' /\ (length b' <= length b -> a = a' /\ b = b').
Proof.
  intros m. induction a as [|x a IH]; intros b a' b' H E; destruct a' as [|y a']; cbn [app] in E.
  - injection E as ->. split; [lia|auto].
  - injection E as <- ->. exfalso. apply H. apply in_or_app. right. now left.
  - injection E as -> <-. rewrite app_length. simpl. split; [lia|]. intros L. lia.
  - injection E as -> E. destruct (IH b a' b' H E) as [L K]. split; [exact L|]. intros L'. destruct (K L') as [-> ->]. now split.
Qed.
Lemma last_mark_unique : forall (m : rune) a b a' b', ~ In m b -> ~ In m b' -> a ++ m :: b = a' ++ m :: b' -> a = a' /\ b = b'.
Proof.
  intros m a b a' b' H H' E. destruct (last_mark m a b a' b' H E) as [L K]. symmetry in E. destruct (last_mark m a' b' a b H' E) as [L' _]. now apply K.
Qed.
Lemma user_part_fun : forall t u p u' p', user_part t u p -> user_part t u' p' -> u = u' /\ p = p'.
Proof.
  intros t u p u' p' H H'. inversion H; subst; inversion H'; subst; auto.
  - exfalso. match goal with X : ~ In _ (_ ++ _) |- _ => apply X; apply in_or_app; right; now left end.
  - exfalso. match goal with X : ~ In _ (_ ++ _) |- _ => apply X; apply in_or_app; right; now left end.
  - match goal with X : _ ++ _ = _ ++ _ |- _ => apply (mark_unique 58) in X; auto; destruct X; now subst end.
Qed.
Lemma net_part_fun : forall t n a n' a', net_part t n a -> net_part t n' a' -> n = n' /\ a = a'.
Proof.
  intros t n a n' a' H H'. inversion H; subst; inversion H'; subst; auto.
  - exfalso. match goal with X : ~ In _ (_ ++ _) |- _ => apply X; apply in_or_app; right; now left end.
  - exfalso. match goal with X : ~ In _ (_ ++ _) |- _ => apply X; apply in_or_app; right; now left end.
  - match goal with X : _ ++ _ = _ ++ _ |- _ => apply (mark_unique 40) in X; auto; destruct X as [-> X]; apply app_inv_tail in X; now subst end.
Qed.
Lemma right_part_fun : forall t d p d' p', right_part t d p -> right_part t d' p' -> d = d' /\ p = p'.
Proof.
  intros t d p d' p' H H'. inversion H; subst; inversion H'; subst; auto.
  - exfalso. match goal with X : ~ In _ (_ ++ _) |- _ => apply X; apply in_or_app; right; now left end.
  - exfalso. match goal with X : ~ In _ (_ ++ _) |- _ => apply X; apply in_or_app; right; now left end.
  - match goal with X : _ ++ _ = _ ++ _ |- _ => apply (mark_unique 63) in X; auto; destruct X; now subst end.
Qed.
Lemma left_part_fun : forall t u p n a u' p' n' a', left_part t u p n a -> left_part t u' p' n' a' -> u = u' /\ p = p' /\ n = n' /\ a = a'.
Proof.
  intros t u p n a u' p' n' a' H H'. inversion H as [up np u0 p0 n0 a0 N U P|np n0 a0 N P]; subst; inversion H' as [up' np' u1 p1 n1 a1 N' U' P' E|np' n1 a1 N' P' E]; subst.
  - apply (last_mark_unique 64) in E; auto. destruct E as [-> ->]. destruct (user_part_fun _ _ _ _ _ U U') as [-> ->]. destruct (net_part_fun _ _ _ _ _ P P') as [-> ->]. auto.
  - exfalso. apply N'. apply in_or_app. right. now left.
  - exfalso. apply N. apply in_or_app. right. now left.
  - destruct (net_part_fun _ _ _ _ _ P P') as [-> ->]. auto.
Qed.
Lemma dsn_means_fun : forall d c c', dsn_means d c -> dsn_means d c' -> c = c'.
Proof.
  intros d c c' H H'. inversion H as [l r x N L R]; subst. inversion H' as [l' r' x' N' L' R' E]; subst.
  apply (last_mark_unique 47) in E; auto. destruct E as [-> ->].
  destruct (left_part_fun _ _ _ _ _ _ _ _ _ L L') as (E1 & E2 & E3 & E4). destruct (right_part_fun _ _ _ _ _ R R') as (E5 & E6).
  destruct c, c'. cbn in *. now subst.
Qed.
(** the parts of the text that is written *)
Definition w_user (c : my_config) : gostring := my_user c ++ match my_password c with [] => [] | p => lit ":" ++ p end.
Definition w_net (c : my_config) : gostring := my_net c ++ match my_addr c with [] => [] | a => lit "(" ++ a ++ lit ")" end.
Definition w_db (c : my_config) : gostring := my_dbname c ++ match my_param_text c with [] => [] | p => lit "?" ++ p end.
Lemma to_dsn_parts : forall c, my_user c <> [] -> my_net c <> [] -> to_dsn c = (w_user c ++ lit "@" ++ w_net c) ++ lit "/" ++ w_db c.
Proof.
  intros c Hu Hn. unfold to_dsn, format_dsn, w_user, w_net, w_db. destruct (my_user c) as [|u us]; [congruence|]. destruct (my_net c) as [|n ns]; [congruence|].
  now rewrite <- !app_assoc.
Qed.
Lemma my_env_shape : forall env c, my_config_from_env env = Ok c -> my_user c <> [] /\ my_net c <> [] /\ my_dbname c <> [].
Proof.
  intros env c H. unfold my_config_from_env, get_env in H. destruct (env (lit "DB_USERNAME")) as [|u us]; [discriminate|]. cbn [obind] in H.
  destruct (env (lit "DB_DATABASE")) as [|d ds]; [discriminate|]. cbn [obind] in H. destruct (env (lit "DB_PROTOCOL")); injection H as <-; cbn [my_user my_net my_dbname]; split; try discriminate; split; discriminate.
Qed.
Lemma right_part_length : forall r d p, right_part r d p -> length r = length d /\ p = [] \/ length r = length d + 1 + length p.
Proof. intros r d p H. inversion H; subst; [left; auto|right]. rewrite app_length. simpl. lia. Qed.
Lemma net_part_length : forall t n a, net_part t n a -> length t = length n /\ a = [] \/ length t = length n + 2 + length a.
Proof. intros t n a H. inversion H; subst; [left; auto|right]. rewrite app_length. simpl. rewrite app_length. simpl. lia. Qed.
