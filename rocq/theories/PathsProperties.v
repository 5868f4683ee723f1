(** C117, C118: the place of the report that is logged, and the URLs of Hasura. *)
From Coq Require Import String List NArith Bool Lia Arith.
From Verif Require Import Base Paths PathsSpec.
Import ListNotations.

(** ** Following paths *)
Definition walk1 (d : list gostring) (c : gostring) : list gostring :=
  if seqb c [] || seqb c (lit ".") then d else if seqb c (lit "..") then removelast d else d ++ [c].
Lemma seqb_neq : forall a b, a <> b -> seqb a b = false.
Proof. intros a b H. destruct (seqb a b) eqn:E; [|reflexivity]. apply seqb_eq in E. easy. Qed.
Lemma walk1_stay : forall d c, c = [] \/ c = lit "." -> walk1 d c = d.
Proof. intros d c [-> | ->]; reflexivity. Qed.
Lemma walk1_down : forall d c, c <> [] -> c <> lit "." -> c <> lit ".." -> walk1 d c = d ++ [c].
Proof. intros d c H1 H2 H3. unfold walk1. now rewrite !seqb_neq by assumption. Qed.
Lemma part_cases : forall c : gostring, (c = [] \/ c = lit ".") \/ c = lit ".." \/ (c <> [] /\ c <> lit "." /\ c <> lit "..").
Proof.
  intros c. destruct (seqb c []) eqn:E1; [apply seqb_eq in E1; auto|]. destruct (seqb c (lit ".")) eqn:E2; [apply seqb_eq in E2; auto|].
  destruct (seqb c (lit "..")) eqn:E3; [apply seqb_eq in E3; auto|]. right; right.
  split; [|split]; intros K; rewrite K, seqb_refl in *; discriminate.
Qed.
Lemma follow_walk : forall cs d e, follow d cs e <-> fold_left walk1 cs d = e.
Proof.
  intros cs d e. split.
  - intros H. induction H as [d|d c cs e H1 H2 IH|cs e H IH|d x cs e H IH|d c cs e H1 H2 H3 H IH]; cbn [fold_left].
    + reflexivity.
    + rewrite walk1_stay by assumption. exact IH.
    + exact IH.
    + change (walk1 (d ++ [x]) (lit "..")) with (removelast (d ++ [x])). rewrite removelast_last. exact IH.
    + rewrite walk1_down by assumption. exact IH.
  - revert d e. induction cs as [|c cs IH]; intros d e H; cbn [fold_left] in H; [subst; apply fo_end|].
    destruct (part_cases c) as [S|[->|(N1 & N2 & N3)]].
    + apply fo_stay; [exact S|]. apply IH. rewrite walk1_stay in H by assumption. exact H.
    + change (walk1 d (lit "..")) with (removelast d) in H. destruct d as [|y d] using rev_ind.
      * apply fo_root. apply IH. exact H.
      * clear IHd. apply fo_up. apply IH. rewrite removelast_last in H. exact H.
    + apply fo_down; [exact N1|exact N2|exact N3|]. apply IH. rewrite walk1_down in H by assumption. exact H.
Qed.
Lemma parts_split : forall p cs, parts p cs <-> cs = split 47 p.
Proof.
  intros p cs. split.
  - intros H. induction H as [s H|s rest cs H H2 IH]; [now rewrite split_none|]. rewrite split_app by assumption. now rewrite IH.
  - intros ->. pose proof (split_no_sep 47 p) as F. pose proof (join_split 47 p) as J. pose proof (split_nonempty 47 p) as NE.
    rewrite <- J at 1. clear J. induction (split 47 p) as [|c l IH]; [easy|]. inversion F as [|x y F1 F2]; subst.
    destruct l as [|c' l]; [now apply pa_last|]. change (join [47%N] (c :: c' :: l)) with (c ++ 47%N :: join [47%N] (c' :: l)).
    apply pa_more; [exact F1|]. apply IH; [exact F2|discriminate].
Qed.
Lemma rooted_absolute : forall p, is_rooted p = true <-> absolute p.
Proof.
  intros [|c p]; cbn [is_rooted]; split.
  - discriminate.
  - intros (q & E). discriminate E.
  - intros E. apply N.eqb_eq in E. subst. now exists p.
  - intros (q & E). injection E as -> _. reflexivity.
Qed.
Definition named (cwd : list gostring) (p : gostring) : list gostring := fold_left walk1 (split 47 p) (if is_rooted p then [] else cwd).
Lemma names_named : forall cwd p e, names cwd p e <-> named cwd p = e.
Proof.
  intros cwd p e. unfold names, named. split.
  - intros (cs & P & [(A & F)|(A & F)]); apply parts_split in P; subst cs; apply follow_walk in F.
    + now rewrite (proj2 (rooted_absolute p) A).
    + destruct (is_rooted p) eqn:R; [apply rooted_absolute in R; easy|]. exact F.
  - intros H. exists (split 47 p). split; [now apply parts_split|]. destruct (is_rooted p) eqn:R.
    + left. split; [now apply rooted_absolute|]. now apply follow_walk.
    + right. split; [intros K; apply rooted_absolute in K; congruence|]. now apply follow_walk.
Qed.

(** ** Cleaning *)
Definition proper (c : gostring) : Prop := c <> [] /\ c <> lit "." /\ ~ In 47%N c.
(** Two dots only at the bottom, and not at all in a rooted path *)
Inductive tidy (rooted : bool) : list gostring -> Prop :=
| ti_nil : tidy rooted []
| ti_up : forall st, rooted = false -> Forall (eq (lit "..")) st -> tidy rooted (lit ".." :: st)
| ti_name : forall c st, proper c -> c <> lit ".." -> tidy rooted st -> tidy rooted (c :: st).
Lemma tidy_proper : forall r st, tidy r st -> Forall proper st.
Proof.
  intros r st H. induction H as [|st _ H|c st H1 H2 H3 IH]; [constructor| |now constructor].
  assert (P : proper (lit "..")) by (split; [discriminate|split; [discriminate|]]; intros [K|[K|[]]]; discriminate K).
  constructor; [exact P|]. eapply Forall_impl; [|exact H]. intros a <-. exact P.
Qed.
Lemma clean_tidy : forall r c st, ~ In 47%N c -> tidy r st -> tidy r (clean_part r st c).
Proof.
  intros r c st NS H. unfold clean_part. destruct (part_cases c) as [S|[->|(N1 & N2 & N3)]].
  - destruct S as [-> | ->]; exact H.
  - cbn [seqb orb]. change (seqb (lit "..") [] || seqb (lit "..") (lit ".")) with false. cbv iota. change (seqb (lit "..") (lit "..")) with true. cbv iota.
    inversion H as [|st' R F|c st' P N T]; subst.
    + destruct r; [constructor|]. apply ti_up; [reflexivity|constructor].
    + change (seqb (lit "..") (lit "..")) with true. cbv iota. apply ti_up; [reflexivity|]. constructor; [reflexivity|exact F].
    + rewrite (seqb_neq c (lit "..") N). exact T.
  - rewrite !seqb_neq by assumption. cbn [orb]. apply ti_name; [split; [exact N1|split; assumption]|exact N3|exact H].
Qed.
Lemma clean_walk : forall r c st d, tidy r st -> (r = true -> d = []) ->
    fold_left walk1 (rev (clean_part r st c)) d = walk1 (fold_left walk1 (rev st) d) c.
Proof.
  intros r c st d H D. unfold clean_part. destruct (part_cases c) as [S|[->|(N1 & N2 & N3)]].
  - rewrite walk1_stay by assumption. destruct S as [-> | ->]; reflexivity.
  - change (seqb (lit "..") [] || seqb (lit "..") (lit ".")) with false. cbv iota. change (seqb (lit "..") (lit "..")) with true. cbv iota.
    inversion H as [|st' R F|c st' P N T]; subst.
    + destruct r; [rewrite (D eq_refl)|]; reflexivity.
    + change (seqb (lit "..") (lit "..")) with true. cbv iota. cbn [rev]. rewrite !fold_left_app. reflexivity.
    + rewrite (seqb_neq c (lit "..") N). cbn [rev]. rewrite fold_left_app. cbn [fold_left]. destruct P as (P1 & P2 & _).
      rewrite (walk1_down _ c P1 P2 N). change (walk1 (fold_left walk1 (rev st') d ++ [c]) (lit "..")) with (removelast (fold_left walk1 (rev st') d ++ [c])).
      now rewrite removelast_last.
  - rewrite !seqb_neq by assumption. cbn [orb rev]. rewrite fold_left_app. reflexivity.
Qed.
Lemma clean_all : forall r cs st d, Forall (fun c => ~ In 47%N c) cs -> tidy r st -> (r = true -> d = []) ->
    tidy r (fold_left (clean_part r) cs st) /\
    fold_left walk1 (rev (fold_left (clean_part r) cs st)) d = fold_left walk1 cs (fold_left walk1 (rev st) d).
Proof.
  intros r. induction cs as [|c cs IH]; intros st d F T D; cbn [fold_left]; [auto|]. inversion F as [|x y F1 F2]; subst.
  destruct (IH (clean_part r st c) d F2 (clean_tidy r c st F1 T) D) as [A B]. split; [exact A|]. rewrite B. f_equal. now apply clean_walk.
Qed.
(** A path and its cleaned form name the same. *)
Lemma clean_named : forall cwd p, p <> [] -> named cwd (path_clean p) = named cwd p.
Proof.
  intros cwd p NE. set (st := fold_left (clean_part (is_rooted p)) (split 47 p) []).
  assert (E : path_clean p = if is_rooted p then 47%N :: join (lit "/") (rev st) else match rev st with [] => lit "." | _ => join (lit "/") (rev st) end)
    by (destruct p; [easy|reflexivity]).
  destruct (clean_all (is_rooted p) (split 47 p) [] (if is_rooted p then [] else cwd) (split_no_sep 47 p) (ti_nil _)) as [T W].
  { intros R. now rewrite R. }
  fold st in T, W. apply tidy_proper in T. assert (NS : Forall (fun c => ~ In 47%N c) (rev st)).
  { apply Forall_rev. eapply Forall_impl; [|exact T]. intros a (_ & _ & K). exact K. }
  rewrite E. clear E. unfold named at 2. cbn [rev fold_left] in W. rewrite <- W. clear W.
  destruct (is_rooted p) eqn:R.
  - unfold named. cbn [is_rooted]. change (N.eqb 47 47) with true. cbv iota. change (split 47 (47%N :: join (lit "/") (rev st))) with ([] :: split 47 (join (lit "/") (rev st))).
    cbn [fold_left]. change (walk1 [] []) with (@nil gostring). destruct (rev st) as [|c l] eqn:RS; [reflexivity|].
    change (lit "/") with [47%N]. rewrite split_join; [reflexivity|discriminate|exact NS].
  - destruct (rev st) as [|c l] eqn:RS; [reflexivity|]. unfold named. change (lit "/") with [47%N]. rewrite split_join by (try discriminate; exact NS).
    assert (H : is_rooted (join [47%N] (c :: l)) = false); [|now rewrite H].
    rewrite Forall_forall in T. assert (PC : proper c) by (apply T; apply in_rev; rewrite RS; now left). destruct PC as (P1 & _ & P3).
    destruct c as [|x c]; [easy|]. assert (H : N.eqb x 47 = false) by (apply N.eqb_neq; intros ->; apply P3; now left).
    destruct l; cbn [join app is_rooted]; exact H.
Qed.
Lemma named_rooted_any : forall p cwd cwd', is_rooted p = true -> named cwd p = named cwd' p.
Proof. intros p cwd cwd' H. unfold named. now rewrite H. Qed.
Lemma split_app_any : forall a b, split 47 (a ++ 47%N :: b) = split 47 a ++ split 47 b.
Proof.
  induction a as [|x a IH]; intros b; [reflexivity|]. cbn [app split]. rewrite IH. destruct (N.eqb x 47); [reflexivity|].
  pose proof (split_nonempty 47 a). destruct (split 47 a) as [|h t]; [easy|reflexivity].
Qed.
Lemma join_named : forall w o cwd, is_rooted w = true ->
    named cwd (path_join [w; o]) = fold_left walk1 (split 47 o) (named cwd w).
Proof.
  intros w o cwd R. assert (E : path_join [w; o] = path_clean (w ++ 47%N :: o)) by (destruct w; [discriminate R|reflexivity]).
  rewrite E, clean_named by (destruct w; discriminate). unfold named. replace (is_rooted (w ++ 47%N :: o)) with (is_rooted w) by (destruct w; [discriminate R|reflexivity]).
  rewrite split_app_any, fold_left_app. reflexivity.
Qed.

(** ** C117 *)
(** For a relative output the path logged names, from any directory, the file that the
    output names in the working directory. *)
Theorem logged_path_names_file : forall wd output dir file, absolute wd -> ~ absolute output ->
    names [] wd dir -> names dir output file ->
    exists logged, logged_output (Some wd) output = Some logged /\ forall cwd, names cwd logged file.
Proof.
  intros wd output dir file AW AO ND NF. exists (path_join [wd; output]). split; [reflexivity|]. intros cwd.
  apply names_named in ND, NF. apply names_named. apply rooted_absolute in AW. rewrite join_named by assumption.
  rewrite (named_rooted_any wd cwd [] AW), ND. unfold named in NF. destruct (is_rooted output) eqn:R; [apply rooted_absolute in R; easy|]. exact NF.
Qed.
Example logged_path_ex :
    names [] (lit "/home/me") [lit "home"; lit "me"] /\ names [lit "home"; lit "me"] (lit "../out/./r.html") [lit "home"; lit "out"; lit "r.html"] /\
    logged_output (Some (lit "/home/me")) (lit "../out/./r.html") = Some (lit "/home/out/r.html").
Proof. split; [apply names_named; reflexivity|]. split; [apply names_named; reflexivity|reflexivity]. Qed.

Lemma walk_no_up : forall cs d, ~ In (lit "..") cs -> exists e, fold_left walk1 cs d = d ++ e.
Proof.
  induction cs as [|c cs IH]; intros d N; [exists []; now rewrite app_nil_r|]. cbn [fold_left]. cbn [In] in N.
  destruct (IH (walk1 d c)) as (e & E); [tauto|]. rewrite E. destruct (part_cases c) as [S|[->|(N1 & N2 & N3)]].
  - rewrite walk1_stay by assumption. now exists e.
  - tauto.
  - rewrite walk1_down by assumption. exists (c :: e). now rewrite <- app_assoc.
Qed.
Lemma walk_no_up_same : forall cs d, ~ In (lit "..") cs -> fold_left walk1 cs d = d ++ fold_left walk1 cs [].
Proof.
  induction cs as [|c cs IH]; intros d N; [now rewrite app_nil_r|]. cbn [fold_left]. cbn [In] in N.
  destruct (part_cases c) as [S|[->|(N1 & N2 & N3)]].
  - rewrite !walk1_stay by assumption. apply IH. tauto.
  - tauto.
  - rewrite !walk1_down by assumption. rewrite IH by tauto. rewrite (IH ([] ++ [c])) by tauto. now rewrite <- app_assoc.
Qed.
(** For an absolute output without two dots it names the file only if the command runs in
    the root directory: otherwise the path logged is that of another file (finding). *)
Theorem logged_absolute_wrong : forall wd output dir file logged cwd, absolute wd -> absolute output ->
    (forall cs, parts output cs -> ~ In (lit "..") cs) ->
    names [] wd dir -> names dir output file -> logged_output (Some wd) output = Some logged ->
    names cwd logged (dir ++ file) /\ (names cwd logged file <-> dir = []).
Proof.
  intros wd output dir file logged cwd AW AO NU ND NF L. injection L as <-.
  specialize (NU _ (proj2 (parts_split output _) eq_refl)). apply names_named in ND, NF. apply rooted_absolute in AW, AO.
  assert (E : named cwd (path_join [wd; output]) = dir ++ file).
  { rewrite join_named by assumption. rewrite (named_rooted_any wd cwd [] AW), ND. rewrite walk_no_up_same by assumption. f_equal.
    unfold named in NF. rewrite AO in NF. exact NF. }
  split; [now apply names_named|]. rewrite names_named, E. split.
  - intros K. destruct dir as [|x dir]; [reflexivity|]. apply (f_equal (@length _)) in K. rewrite app_length in K. cbn [length] in K. lia.
  - intros ->. reflexivity.
Qed.
Example logged_absolute_ex :
    names [] (lit "/home/me") [lit "home"; lit "me"] /\ names [lit "home"; lit "me"] (lit "/tmp/r.html") [lit "tmp"; lit "r.html"] /\
    (forall cs, parts (lit "/tmp/r.html") cs -> ~ In (lit "..") cs) /\
    logged_output (Some (lit "/home/me")) (lit "/tmp/r.html") = Some (lit "/home/me/tmp/r.html").
Proof.
  split; [apply names_named; reflexivity|]. split; [apply names_named; reflexivity|]. split; [|reflexivity].
  intros cs P K. apply parts_split in P. subst cs. vm_compute in K. decompose [or] K; try easy; discriminate.
Qed.

(** ** C118 *)
Lemma hex_digit_of : forall n, (n < 16)%N -> hex_of (hex_digit n) n /\ hex_digit n <> 63%N /\ hex_digit n <> 35%N.
Proof.
  intros n H. unfold hex_of, hex_digit. destruct (N.ltb_spec n 10) as [K|K].
  - split; [left; split; [lia|lia]|lia].
  - split; [right; left; split; [lia|lia]|lia].
Qed.
Lemma path_char_plain : forall c, path_char c = true -> c <> 37%N /\ c <> 63%N /\ c <> 35%N.
Proof. intros c H. split; [|split]; intros ->; discriminate H. Qed.
Lemma escape_decodes : forall p, Forall (fun c => (c < 256)%N) p ->
    decodes (escape_path p) p /\ ~ In 63%N (escape_path p) /\ ~ In 35%N (escape_path p).
Proof.
  intros p H. induction H as [|c p H1 H (IH1 & IH2 & IH3)]; [split; [constructor|split; intros []]|].
  cbn [escape_path flat_map]. fold (escape_path p). unfold escape_char. destruct (path_char c) eqn:E.
  - apply path_char_plain in E. destruct E as (E1 & E2 & E3). cbn [app]. split; [now apply de_char|].
    split; intros [K|K]; [easy|easy|easy|easy].
  - assert (D1 : (c / 16 < 16)%N) by (apply N.div_lt_upper_bound; lia). assert (D2 : (c mod 16 < 16)%N) by (apply N.mod_lt; lia).
    destruct (hex_digit_of _ D1) as (A1 & A2 & A3), (hex_digit_of _ D2) as (B1 & B2 & B3). cbn [app]. split.
    + replace c with (c / 16 * 16 + c mod 16)%N at 3 by (pose proof (N.div_mod c 16); lia). apply de_hex; assumption.
    + split; intros [K|[K|[K|K]]]; easy.
Qed.
Lemma unescape_decodes : forall n s p, length s <= n -> unescape_path s = Some p -> decodes s p.
Proof.
  assert (HX : forall c v, hex_value c = Some v -> hex_of c v).
  { intros c v H. unfold hex_value in H. unfold hex_of.
    destruct (N.leb 48 c && N.leb c 57)%N eqn:E1; [injection H as <-; apply andb_true_iff in E1; rewrite !N.leb_le in E1; left; lia|].
    destruct (N.leb 65 c && N.leb c 70)%N eqn:E2; [injection H as <-; apply andb_true_iff in E2; rewrite !N.leb_le in E2; right; left; lia|].
    destruct (N.leb 97 c && N.leb c 102)%N eqn:E3; [injection H as <-; apply andb_true_iff in E3; rewrite !N.leb_le in E3; right; right; lia|]. discriminate H. }
  induction n as [|n IH]; intros s p L H; destruct s as [|c s]; cbn [length] in L; try lia; cbn [unescape_path] in H; [injection H as <-; constructor|injection H as <-; constructor|].
  destruct (N.eqb_spec c 37) as [->|NC].
  - destruct s as [|a [|b s]]; [discriminate H|discriminate H|]. destruct (hex_value a) as [x|] eqn:X; [|discriminate H].
    destruct (hex_value b) as [y|] eqn:Y; [|discriminate H]. destruct (unescape_path s) as [r|] eqn:R; [|discriminate H].
    assert (EP : p = (x * 16 + y)%N :: r) by (rewrite (N.mul_comm x 16); congruence). subst p. cbn [length] in L. apply de_hex; [now apply HX|now apply HX|]. apply IH; [lia|exact R].
  - destruct (unescape_path s) as [r|] eqn:R; [|discriminate H]. injection H as <-. apply de_char; [exact NC|]. apply IH; [lia|exact R].
Qed.
Lemma decodes_fun : forall s p, decodes s p -> forall q, decodes s q -> p = q.
Proof.
  assert (HF : forall c v w, hex_of c v -> hex_of c w -> v = w) by (unfold hex_of; intros; lia).
  intros s p H. induction H as [|c s p N H IH|a b x y s p H1 H2 H IH]; intros q K; inversion K as [|c' s' q' N' K'|a' b' x' y' s' q' K1 K2 K']; subst; try easy.
  - f_equal. now apply IH.
  - rewrite (HF _ _ _ H1 K1), (HF _ _ _ H2 K2). f_equal. now apply IH.
Qed.

(** Parts of an end point *)
Lemma hasura_parts : forall ep, In ep hasura_paths -> absolute ep /\ exists cs, named [] ep = cs /\ cs <> [] /\
    (forall d, fold_left walk1 (split 47 ep) d = d ++ cs).
Proof.
  intros ep H. cbn [hasura_paths In] in H. decompose [or] H; try easy; subst ep; (split; [eexists; reflexivity|]); eexists; (split; [reflexivity|]);
    (split; [vm_compute; discriminate|]); intros d; rewrite walk_no_up_same by (vm_compute; intros K; decompose [or] K; try easy; discriminate); reflexivity.
Qed.
Lemma clean_rooted : forall p, is_rooted p = true -> is_rooted (path_clean p) = true.
Proof. intros [|c p] H; [discriminate H|]. unfold path_clean. rewrite H. reflexivity. Qed.
Lemma join_rooted : forall a b, (a = [] \/ absolute a) -> absolute b -> is_rooted (path_join [a; b]) = true.
Proof.
  intros a b A B. apply rooted_absolute in B. destruct A as [-> | A].
  - destruct b as [|c b]; [discriminate B|]. change (path_join [[]; c :: b]) with (path_clean (c :: b)). now apply clean_rooted.
  - destruct A as (q & ->). change (path_join [47%N :: q; b]) with (path_clean (47%N :: q ++ 47%N :: b)). apply clean_rooted. reflexivity.
Qed.
Lemma join_named2 : forall a b, (a = [] \/ absolute a) -> absolute b ->
    named [] (path_join [a; b]) = fold_left walk1 (split 47 b) (named [] a).
Proof.
  intros a b [-> | A] B.
  - destruct B as (q & ->). change (path_join [[]; 47%N :: q]) with (path_clean (47%N :: q)). rewrite clean_named by discriminate. reflexivity.
  - apply rooted_absolute in A. now apply join_named.
Qed.

Definition small (p : gostring) : Prop := Forall (fun c => (c < 256)%N) p.
Lemma clean_part_in : forall r cs st c, In c (fold_left (clean_part r) cs st) -> In c cs \/ In c st.
Proof.
  intros r. induction cs as [|x cs IH]; intros st c H; cbn [fold_left] in H; [now right|]. apply IH in H. destruct H as [H|H]; [left; now right|].
  unfold clean_part in H. destruct (seqb x [] || seqb x (lit ".")); [now right|]. destruct (seqb x (lit "..")).
  - destruct st as [|y st].
    + destruct r; [easy|]. destruct H as [<-|[]]. left; now left.
    + destruct (seqb y (lit "..")); [|right; now right]. destruct H as [<-|H]; [left; now left|now right].
  - destruct H as [<-|H]; [left; now left|now right].
Qed.
Lemma join_small : forall l, Forall small l -> small (join (lit "/") l).
Proof.
  intros l H. induction H as [|x l H1 H IH]; [constructor|]. destruct l as [|y l]; [exact H1|].
  change (join (lit "/") (x :: y :: l)) with (x ++ [47%N] ++ join (lit "/") (y :: l)). apply Forall_app. split; [exact H1|]. constructor; [lia|exact IH].
Qed.
Lemma clean_small : forall p, small p -> small (path_clean p).
Proof.
  intros p H. assert (DOT : small (lit ".")) by (constructor; [reflexivity|constructor]).
  assert (J : small (join (lit "/") (rev (fold_left (clean_part (is_rooted p)) (split 47 p) [])))).
  { apply join_small. apply Forall_rev. apply Forall_forall. intros c K. apply clean_part_in in K. destruct K as [K|[]].
    apply Forall_forall. intros x X. unfold small in H. rewrite Forall_forall in H. apply H. eapply split_In; eauto. }
  destruct p as [|c p]; [exact DOT|]. unfold path_clean. destruct (is_rooted (c :: p)); [constructor; [lia|exact J]|].
  destruct (rev (fold_left (clean_part false) (split 47 (c :: p)) [])); [exact DOT|exact J].
Qed.
Lemma path_join_small : forall a b, small a -> small b -> small (path_join [a; b]).
Proof.
  intros a b A B. unfold path_join. destruct a as [|c a].
  - cbn [drop_empty]. destruct b as [|d b]; [constructor|]. now apply clean_small.
  - cbn [drop_empty]. apply clean_small. apply join_small. constructor; [exact A|]. constructor; [exact B|constructor].
Qed.

(** The URL of a request starts with that of the configuration and ends with its query,
    the server reads from it a path that names the end point below the directory of the
    configured URL.  [bu_raw]: what url.Parse gives. *)
Theorem hasura_url : forall u ep, In ep hasura_paths -> (bu_path u = [] \/ absolute (bu_path u)) -> small (bu_path u) ->
    (bu_raw u = [] \/ decodes (bu_raw u) (bu_path u)) ->
    exists q p, resolve_url u ep = bu_origin u ++ q ++ bu_tail u /\ decodes q p /\ absolute p /\ ~ In 63%N q /\ ~ In 35%N q /\
      forall d e, names [] (bu_path u) d -> names [] ep e -> names [] p (d ++ e).
Proof.
  intros u ep HE HP HS HR. destruct (hasura_parts ep HE) as (AE & cs & E1 & NE & W).
  set (p := path_join [bu_path u; ep]). assert (NP : named [] p = named [] (bu_path u) ++ cs) by (unfold p; rewrite join_named2 by assumption; apply W).
  assert (RP : is_rooted p = true) by (now apply join_rooted).
  assert (SP : small p).
  { apply path_join_small; [exact HS|]. cbn [hasura_paths In] in HE. decompose [or] HE; try easy; subst ep; repeat (constructor; [reflexivity|]); constructor. }
  assert (E : escaped_path {| bu_origin := bu_origin u; bu_path := p; bu_raw := bu_raw u; bu_tail := bu_tail u |} = escape_path p).
  { unfold escaped_path. cbn [bu_raw bu_path].
    assert (NR : negb (seqb (bu_raw u) []) && match unescape_path (bu_raw u) with Some p0 => seqb p0 p | None => false end = false).
    { destruct HR as [-> |HR]; [reflexivity|]. destruct (unescape_path (bu_raw u)) as [p0|] eqn:U; [|apply andb_false_r].
      apply (unescape_decodes (length (bu_raw u))) in U; [|lia]. rewrite (decodes_fun _ _ U _ HR).
      rewrite (seqb_neq (bu_path u) p); [apply andb_false_r|]. intros K. rewrite <- K in NP. apply (f_equal (@length _)) in NP. rewrite app_length in NP.
      destruct cs; [easy|]. cbn [length] in NP. lia. }
    rewrite NR. cbv iota. rewrite seqb_neq; [reflexivity|]. intros K. rewrite K in RP. discriminate RP. }
  destruct (escape_decodes p SP) as (D1 & D2 & D3). exists (escape_path p), p. split; [unfold resolve_url, url_string; fold p; rewrite E; reflexivity|].
  split; [exact D1|]. split; [now apply rooted_absolute|]. split; [exact D2|]. split; [exact D3|].
  intros d e ND NF. apply names_named in ND, NF. apply names_named. rewrite NP, ND. f_equal. congruence.
Qed.
Definition ex_base : base_url := {| bu_origin := lit "https://h:8080"; bu_path := lit "/api/../my hasura/"; bu_raw := []; bu_tail := lit "?k=v" |}.
Example hasura_url_ex : resolve_url ex_base (lit "/v1/graphql") = lit "https://h:8080/my%20hasura/v1/graphql?k=v" /\
    names [] (bu_path ex_base) [lit "my hasura"] /\ names [] (lit "/v1/graphql") [lit "v1"; lit "graphql"].
Proof. split; [vm_compute; reflexivity|]. split; apply names_named; reflexivity. Qed.

(** ** The offered curl command *)
Lemma clean_names : forall l st, Forall proper l -> ~ In (lit "..") l -> fold_left (clean_part true) l st = rev l ++ st.
Proof.
  induction l as [|c l IH]; intros st P N; [reflexivity|]. inversion P as [|x y (P1 & P2 & _) P4]; subst. cbn [In] in N. cbn [fold_left].
  assert (E : clean_part true st c = c :: st) by (unfold clean_part; rewrite !seqb_neq by (try assumption; intros ->; tauto); reflexivity).
  rewrite E, IH by tauto. cbn [rev]. now rewrite <- app_assoc.
Qed.
Lemma clean_same : forall l, l <> [] -> Forall proper l -> ~ In (lit "..") l -> path_clean (47%N :: join (lit "/") l) = 47%N :: join (lit "/") l.
Proof.
  intros l NE P N. unfold path_clean. change (is_rooted (47%N :: join (lit "/") l)) with true. cbv zeta iota.
  change (split 47 (47%N :: join (lit "/") l)) with ([] :: split 47 (join (lit "/") l)). change (lit "/") with [47%N].
  rewrite split_join; [|exact NE|eapply Forall_impl; [|exact P]; intros a (_ & _ & K); exact K].
  cbn [fold_left]. change (clean_part true [] []) with (@nil gostring). rewrite clean_names by assumption. now rewrite app_nil_r, rev_involutive.
Qed.
Lemma join_app_slash : forall a b, a <> [] -> b <> [] -> join (lit "/") (a ++ b) = join (lit "/") a ++ 47%N :: join (lit "/") b.
Proof.
  induction a as [|x a IH]; intros b A B; [easy|]. destruct a as [|y a].
  - destruct b; [easy|]. reflexivity.
  - change (join (lit "/") ((x :: y :: a) ++ b)) with (x ++ [47%N] ++ join (lit "/") ((y :: a) ++ b)). rewrite IH by (try discriminate; exact B).
    change (join (lit "/") (x :: y :: a)) with (x ++ [47%N] ++ join (lit "/") (y :: a)). rewrite <- !app_assoc. reflexivity.
Qed.
(** The command offered on a Hasura page posts to the text of HASURA_URL with
    /v2/query behind it (C51).  This is the URL that the client uses if the configured URL
    is an origin and a path of plain names without a slash at its end, or no path. *)
Theorem curl_url_agrees : forall u l, bu_tail u = [] -> bu_raw u = [] ->
    bu_path u = concat (map (fun c => 47%N :: c) l) -> Forall proper l -> ~ In (lit "..") l ->
    resolve_url u (lit "/v2/query") = url_string u ++ lit "/v2/query".
Proof.
  intros u l T R P FP N. unfold resolve_url, url_string. rewrite T, !app_nil_r, <- app_assoc. f_equal.
  assert (ES : forall o p t, p <> lit "*" -> escaped_path {| bu_origin := o; bu_path := p; bu_raw := []; bu_tail := t |} = escape_path p).
  { intros o p t K. unfold escaped_path. cbn [bu_raw bu_path]. change (negb (seqb [] [])) with false. cbn [andb]. now rewrite seqb_neq. }
  assert (PN : bu_path u = [] \/ bu_path u = 47%N :: join (lit "/") l /\ l <> []).
  { rewrite P. destruct l as [|c l]; [now left|]. right. split; [|discriminate]. clear. revert c. induction l as [|d l IH]; intros c; [cbn; now rewrite app_nil_r|].
    cbn [map concat]. cbn [map concat] in IH. rewrite IH. cbn [app]. f_equal. }
  assert (EU : escaped_path u = escape_path (bu_path u)).
  { destruct u as [o p r t]. cbn [bu_raw bu_path] in *. subst r. apply ES. destruct PN as [-> | (-> & _)]; discriminate. }
  rewrite R, EU.
  assert (J : path_join [bu_path u; lit "/v2/query"] = bu_path u ++ lit "/v2/query").
  { destruct PN as [-> | (E & NE)]; [reflexivity|]. rewrite E.
    change (path_join [47%N :: join (lit "/") l; lit "/v2/query"]) with (path_clean (47%N :: join (lit "/") l ++ 47%N :: lit "/v2/query")).
    assert (C : path_clean (47%N :: join (lit "/") l ++ 47%N :: lit "/v2/query") = path_clean (47%N :: join (lit "/") (l ++ [lit "v2"; lit "query"]))).
    { rewrite join_app_slash by (try discriminate; exact NE). unfold path_clean. cbn [is_rooted]. change (N.eqb 47 47) with true. cbv zeta iota.
      f_equal. f_equal. f_equal. change (47%N :: join (lit "/") l ++ 47%N :: lit "/v2/query") with (([] ++ 47%N :: join (lit "/") l) ++ 47%N :: lit "/v2/query").
      change (47%N :: join (lit "/") l ++ 47%N :: join (lit "/") [lit "v2"; lit "query"]) with (([] ++ 47%N :: join (lit "/") l) ++ 47%N :: lit "v2/query").
      rewrite !(split_app_any (_ ++ _)), !fold_left_app. reflexivity. }
    rewrite C, clean_same.
    - rewrite join_app_slash by (try discriminate; exact NE). reflexivity.
    - destruct l; discriminate.
    - apply Forall_app. split; [exact FP|].
      constructor; [|constructor; [|constructor]]; (split; [discriminate|split; [discriminate|]]); intros K; vm_compute in K; decompose [or] K; try easy; discriminate.
    - rewrite in_app_iff. intros [K|[K|[K|[]]]]; [easy|discriminate K|discriminate K]. }
  rewrite ES.
  - rewrite J. unfold escape_path. now rewrite flat_map_app.
  - rewrite J. destruct PN as [-> | (-> & _)]; discriminate.
Qed.
Example curl_url_ex : resolve_url {| bu_origin := lit "http://h"; bu_path := lit "/my hasura"; bu_raw := []; bu_tail := [] |} (lit "/v2/query")
    = lit "http://h/my%20hasura/v2/query" /\ proper (lit "my hasura").
Proof. split; [vm_compute; reflexivity|]. split; [discriminate|split; [discriminate|]]. intros K; vm_compute in K; decompose [or] K; try easy; discriminate. Qed.
(** Otherwise they can differ (finding): with a slash at the end of HASURA_URL, and with an
    escaped slash in it, which the client loses. *)
Theorem curl_url_refuted :
  ~ (forall u, bu_tail u = [] -> absolute (bu_path u) -> (bu_raw u = [] \/ decodes (bu_raw u) (bu_path u)) ->
       resolve_url u (lit "/v2/query") = url_string u ++ lit "/v2/query").
Proof.
  intros H. specialize (H {| bu_origin := lit "http://h"; bu_path := lit "/"; bu_raw := []; bu_tail := [] |} eq_refl (ex_intro _ [] eq_refl) (or_introl eq_refl)).
  vm_compute in H. discriminate H.
Qed.
Theorem escaped_slash_lost :
  let u := {| bu_origin := lit "http://h"; bu_path := lit "/a/b"; bu_raw := lit "/a%2Fb"; bu_tail := [] |} in
  decodes (bu_raw u) (bu_path u) /\ url_string u = lit "http://h/a%2Fb" /\ resolve_url u (lit "/v2/query") = lit "http://h/a/b/v2/query".
Proof.
  cbv zeta. cbn [bu_raw bu_path]. split; [|split; vm_compute; reflexivity]. apply (unescape_decodes 6); [vm_compute; lia|reflexivity].
Qed.

Print Assumptions logged_path_names_file.
Print Assumptions logged_absolute_wrong.
Print Assumptions hasura_url.
Print Assumptions curl_url_agrees.
Print Assumptions curl_url_refuted.
Print Assumptions escaped_slash_lost.
