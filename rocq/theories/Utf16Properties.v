(** C148: texts cut and sorted by UTF-16 units on the pages. *)
From Coq Require Import String List NArith ZArith QArith Bool Lia Arith Permutation Sorted.
From Verif Require Import Base IndexBuild Pi LoadCharts Tooltip TooltipSpec Utf16 Utf16Spec Utf16Proofs.
From Verif Require Utf8Spec Utf8Proofs TooltipProperties CatalogReadProofs LoadChartsProofs LoadChartsProperties.
Import ListNotations.
Local Open Scope nat_scope.
Local Open Scope list_scope.

Definition ex_smile : gostring := [128512%N].
Lemma proper_lit : forall s, forallb (fun c => (N.ltb c 55296 || N.ltb 57343 c && N.ltb c 1114112)%bool) s = true -> proper s.
Proof.
  intros s H. rewrite forallb_forall in H. apply Forall_forall. intros c C. specialize (H c C). apply orb_true_iff in H. rewrite andb_true_iff, !N.ltb_lt in H. split; lia.
Qed.

(** ** Strings *)
(** Each text of characters has one string of units, no other text has it, and it is seen
    as that text and nothing else. *)
Theorem utf16_right : forall s, proper s ->
  (forall u, text_units s u <-> u = utf16 s) /\ (forall t, proper t -> text_units t (utf16 s) -> t = s) /\ (forall t, seen (utf16 s) t <-> t = s).
Proof.
  intros s P. split; [|split].
  - intros u. split; [apply text_units_eq|intros ->; now apply utf16_text].
  - intros t T H. apply text_units_eq in H. symmetry. now apply utf16_inj.
  - intros t. split.
    + intros H. apply seen_eq in H; [|now apply units_bound]. now rewrite drawn_utf16 in H.
    + intros ->. rewrite <- (drawn_utf16 s P) at 2. apply seen_drawn with (length (utf16 s)); [lia|now apply units_bound].
Qed.
Example utf16_right_nonvacuous : proper (lit "a" ++ ex_smile) /\ utf16 (lit "a" ++ ex_smile) = [97; 55357; 56832]%N.
Proof. split; [apply proper_lit; reflexivity|vm_compute; reflexivity]. Qed.

(** ** Names below the charts *)
Lemma units_bound_text : forall s u, proper s -> text_units s u -> Forall (fun x => (x < 65536)%N) u.
Proof. intros s u P T. rewrite (text_units_eq _ _ T). now apply units_bound. Qed.
Lemma firstn_bound : forall n u, Forall (fun x => (x < 65536)%N) u -> Forall (fun x => (x < 65536)%N) (firstn n u).
Proof. intros n u F. rewrite <- (firstn_skipn n u) in F. now apply Forall_app in F. Qed.
Lemma dots_bound : Forall (fun x => (x < 65536)%N) (lit "...").
Proof. repeat (constructor; [reflexivity|]). constructor. Qed.
Lemma seen_iff : forall u t, Forall (fun x => (x < 65536)%N) u -> (seen u t <-> t = drawn_text u).
Proof. intros u t F. split; [intros H; now apply seen_eq|]. intros ->. now apply seen_drawn with (length u). Qed.
Lemma shortened : forall n s u, proper s -> text_units s u -> n < length u -> exists q, cut n s q /\ forall t, seen (firstn n u ++ lit "...") t <-> t = q ++ lit "...".
Proof.
  intros n s u P T L. pose proof (text_units_eq _ _ T) as ->. destruct (cut_drawn s n (lit "...") P L) as (q & C & D).
  { intros x t E. injection E as <- _. reflexivity. }
  exists q. split; [exact C|]. intros t. rewrite seen_iff by (apply Forall_app; split; [apply firstn_bound; now apply units_bound|exact dots_bound]). rewrite D. reflexivity.
Qed.
(** The legend of a name with up to 20 units is the name; of a longer one its start and
    three dots, with U+FFFD before them if a character would be cut in two. *)
Theorem legend_text : forall s name, proper s -> text_units s name ->
  (length name <= 20 -> forall shown, seen (legend name) shown <-> shown = s) /\
  (20 < length name -> exists q, cut 20 s q /\ (forall q', cut 20 s q' -> q' = q) /\ forall shown, seen (legend name) shown <-> shown = q ++ lit "...").
Proof.
  intros s name P T. unfold legend, substring0. split; intros L.
  - apply Nat.leb_le in L. rewrite L. pose proof (text_units_eq _ _ T) as ->. apply (utf16_right s P).
  - destruct (Nat.leb_spec (length name) 20) as [K|K]; [lia|]. destruct (shortened 20 s name P T L) as (q & C & D).
    exists q. split; [exact C|]. split; [|exact D]. intros q' C'. now apply (cut_unique 20 s).
Qed.
Example legend_text_nonvacuous :
  drawn_text (legend (utf16 (lit "SELECT * FROM `users` WHERE id = 1"))) = lit "SELECT * FROM `users..." /\
  drawn_text (legend (utf16 (lit "SELECT 'aaaaaaaaaaa" ++ ex_smile ++ lit "'"))) = lit "SELECT 'aaaaaaaaaaa" ++ [65533%N] ++ lit "..." /\
  drawn_text (legend (utf16 (lit "SELECT 'aaaaaaaaa" ++ ex_smile ++ lit "'"))) = lit "SELECT 'aaaaaaaaa" ++ ex_smile ++ lit "'".
Proof. split; [|split]; vm_compute; reflexivity. Qed.
(** Two names have the same legend only if they are the same or both are longer than 20
    units and start with the same 20. *)
Theorem legend_same : forall a b, legend a = legend b <-> a = b \/ exists p x y, a = p ++ x /\ b = p ++ y /\ length p = 20 /\ x <> [] /\ y <> [].
Proof.
  intros a b. unfold legend, substring0. destruct (Nat.leb_spec (length a) 20) as [A|A], (Nat.leb_spec (length b) 20) as [B|B]; split; intros H.
  - now left.
  - destruct H as [H|(p & x & y & -> & -> & L & X & Y)]; [exact H|]. rewrite app_length in A. destruct x; [congruence|cbn [length] in A; lia].
  - exfalso. apply (f_equal (@length _)) in H. rewrite app_length, firstn_length in H. cbn [length of_string] in H. lia.
  - exfalso. destruct H as [-> |(p & x & y & -> & -> & L & X & Y)]; [lia|]. rewrite app_length in A. destruct x; [congruence|cbn [length] in A; lia].
  - exfalso. apply (f_equal (@length _)) in H. rewrite app_length, firstn_length in H. cbn [length of_string] in H. lia.
  - exfalso. destruct H as [-> |(p & x & y & -> & -> & L & X & Y)]; [lia|]. rewrite app_length in B. destruct y; [congruence|cbn [length] in B; lia].
  - apply app_inv_tail in H. right. exists (firstn 20 a), (skipn 20 a), (skipn 20 b). split; [now rewrite firstn_skipn|]. split; [rewrite H; now rewrite firstn_skipn|].
    split; [rewrite firstn_length; lia|]. split; intros E; apply (f_equal (@length _)) in E; rewrite skipn_length in E; cbn [length] in E; lia.
  - destruct H as [-> |(p & x & y & -> & -> & L & X & Y)]; [reflexivity|]. rewrite <- L. now rewrite !firstn_app, !Nat.sub_diag, !firstn_all.
Qed.
(** Different SQLs of one timeline can have the same legend. *)
Definition ex_series (sql : string) : series := {| se_db := lit "db"; se_name := lit sql; se_data := [] |}.
Theorem legends_distinct_refuted : ~ (forall l, NoDup (map se_name l) -> NoDup (legends l)).
Proof.
  intros H. specialize (H [ex_series "SELECT * FROM `users` WHERE id = ?"; ex_series "SELECT * FROM `users_tasks` WHERE id = ?"]).
  assert (NoDup (map se_name [ex_series "SELECT * FROM `users` WHERE id = ?"; ex_series "SELECT * FROM `users_tasks` WHERE id = ?"])) as N.
  { constructor; [|constructor; [easy|constructor]]. intros [E|[]]. discriminate E. }
  specialize (H N). inversion H as [|x l NI _]; subst. apply NI. left. vm_compute. reflexivity.
Qed.
(** With at most 20 units in each name they are distinct. *)
Theorem legends_distinct : forall l, Forall (fun s => proper (se_name s)) l -> Forall (fun s => forall u, text_units (se_name s) u -> length u <= 20) l ->
  NoDup (map se_name l) -> NoDup (legends l).
Proof.
  intros l P L N. induction l as [|s l IH]; [constructor|]. inversion P as [|s1 l1 P1 P2]; inversion L as [|s2 l2 L1 L2]; inversion N as [|s3 l3 N1 N2]; subst. cbn [legends map].
  constructor; [|now apply IH]. intros IN. apply in_map_iff in IN as (t & E & T). apply legend_same in E. rewrite Forall_forall in P2, L2.
  assert (forall s, proper (se_name s) -> (forall u, text_units (se_name s) u -> length u <= 20) -> length (utf16 (se_name s)) <= 20) as LE.
  { intros s' PP LL. apply LL. now apply utf16_text. }
  destruct E as [E|(p & x & y & E & E' & LP & X & Y)].
  - apply utf16_inj in E; [|apply P2, T|exact P1]. apply N1. rewrite <- E. now apply in_map.
  - pose proof (LE s P1 L1) as K. rewrite E', app_length in K. destruct y; [congruence|cbn [length] in K; lia].
Qed.
Example legends_distinct_nonvacuous : legends [ex_series "SELECT 1"; ex_series "SELECT 2"] = [lit "SELECT 1"; lit "SELECT 2"].
Proof. vm_compute. reflexivity. Qed.

(** ** Headings of the tooltips of plans *)
(** The text without the white space around it if it has up to 50 units, else its start and
    three dots, with U+FFFD before them if a character would be cut in two. *)
Theorem heading_text : forall s text, proper s -> text_units s text -> exists core w, trimmed core s /\ text_units core w /\
  (length w <= 50 -> forall shown, seen (short_units text) shown <-> shown = core) /\
  (50 < length w -> exists q, cut 50 core q /\ (forall q', cut 50 core q' -> q' = q) /\ forall shown, seen (short_units text) shown <-> shown = q ++ lit "...").
Proof.
  intros s text P T. pose proof (text_units_eq _ _ T) as ->. pose proof (proper_trim s P) as PT. exists (trim s), (utf16 (trim s)).
  split; [apply TooltipProperties.trim_spec|]. split; [now apply utf16_text|]. unfold short_units, substring0. cbv zeta. rewrite trim_utf16 by exact P. split; intros L.
  - destruct (Nat.ltb_spec 50 (length (utf16 (trim s)))) as [K|K]; [lia|]. rewrite firstn_all2 by exact L. apply (utf16_right _ PT).
  - destruct (Nat.ltb_spec 50 (length (utf16 (trim s)))) as [K|K]; [|lia]. destruct (shortened 50 _ _ PT (utf16_text _ PT) L) as (q & C & D).
    exists q. split; [exact C|]. split; [|exact D]. intros q' C'. now apply (cut_unique 50 (trim s)).
Qed.
Example heading_text_nonvacuous :
  drawn_text (short_units (utf16 (lit "  Filter: (users.name = 'aaaaaaaaaaaaaaaaaaaaaaaaaa" ++ ex_smile ++ lit "')")))
    = lit "Filter: (users.name = 'aaaaaaaaaaaaaaaaaaaaaaaaaa" ++ [65533%N] ++ lit "..." /\
  drawn_text (short_units (utf16 (lit "  -> Table scan on users" ++ [12288%N]))) = lit "-> Table scan on users".
Proof. split; vm_compute; reflexivity. Qed.
(** Without characters of two units that is the heading of the model with code points. *)
Theorem heading_same : forall s, Forall (fun c => (c < 65536)%N) s -> short_units (utf16 s) = short_text s.
Proof. intros s F. now rewrite utf16_small. Qed.
Example heading_same_nonvacuous : short_units (utf16 (lit " -> Table scan on t")) = lit "-> Table scan on t".
Proof. vm_compute. reflexivity. Qed.
(** With them it need not be. *)
Theorem heading_same_refuted : ~ (forall s, proper s -> drawn_text (short_units (utf16 s)) = short_text s).
Proof.
  intros H. specialize (H (List.repeat 128512%N 30)). discriminate H. apply proper_lit. reflexivity.
Qed.

(** ** Databases *)
(** The databases offered are those of the rows, each once, in the order of their units. *)
Theorem databases_order : forall srt rows, is_sort js_less srt -> (forall r d, In r rows -> In d (tl_dbs r) -> proper (dl_name d)) ->
  page_databases srt None = [] /\
  exists l, Forall2 text_units l (page_databases srt (Some rows)) /\ StronglySorted text_before l /\
    forall db, In db l <-> exists r d, In r rows /\ In d (tl_dbs r) /\ dl_name d = db.
Proof.
  intros srt rows HS P. split; [reflexivity|]. unfold page_databases. set (names := concat (map (fun r => map (fun d => utf16 (dl_name d)) (tl_dbs r)) rows)).
  destruct (LoadChartsProofs.uniq_spec names) as [ND IN]. destruct (HS (uniq names)) as [PE SB].
  assert (forall u, In u (srt (uniq names)) <-> exists r d, In r rows /\ In d (tl_dbs r) /\ utf16 (dl_name d) = u) as MEM.
  { intros u. transitivity (In u names).
    - rewrite <- IN. split; intros H; [apply (Permutation_in _ PE H)|apply (Permutation_in _ (Permutation_sym PE) H)].
    - unfold names. rewrite in_concat. split.
      + intros (x & X & U). apply in_map_iff in X as (r & <- & R). apply in_map_iff in U as (d & E & D). eauto.
      + intros (r & d & R & D & E). exists (map (fun d => utf16 (dl_name d)) (tl_dbs r)). split; [apply (in_map (fun r => map (fun d => utf16 (dl_name d)) (tl_dbs r))); exact R|].
        rewrite <- E. apply (in_map (fun d => utf16 (dl_name d))). exact D. }
  assert (NoDup (srt (uniq names))) as ND2 by (apply (Permutation_NoDup (Permutation_sym PE)); exact ND).
  clear PE ND IN. revert MEM SB ND2. generalize (srt (uniq names)). intros l MEM SB ND2.
  assert (forall u, In u l -> exists s, proper s /\ u = utf16 s) as IMG.
  { intros u U. apply MEM in U as (r & d & R & D & <-). exists (dl_name d). split; [now apply (P r d)|reflexivity]. }
  exists (map drawn_text l). split; [|split].
  - clear MEM SB ND2. induction l as [|u l IH]; [constructor|]. cbn [map]. constructor; [|apply IH; intros x X; apply IMG; now right].
    destruct (IMG u (or_introl eq_refl)) as (s & S1 & ->). rewrite drawn_utf16 by exact S1. now apply utf16_text.
  - clear MEM. induction SB as [|u l HF SB IH]; [constructor|]. inversion ND2 as [|u' l' N1 N2]; subst. cbn [map]. constructor; [apply IH; [exact N2|intros x X; apply IMG; now right]|].
    apply Forall_forall. intros t T. apply in_map_iff in T as (w & <- & W). rewrite Forall_forall in HF. specialize (HF w W).
    destruct (IMG u (or_introl eq_refl)) as (s & S1 & EU). destruct (IMG w (or_intror W)) as (s' & S2 & EW). rewrite EU, EW, !drawn_utf16 by assumption.
    apply text_before_iff; [exact S1|exact S2|]. rewrite <- EU, <- EW. destruct (js_less u w) eqn:E; [reflexivity|]. exfalso. apply N1. rewrite js_less_sltb in E, HF.
    assert (u = w) as -> by (apply sltb_total; assumption). exact W.
  - intros db. rewrite in_map_iff. split.
    + intros (u & <- & U). apply MEM in U as (r & d & R & D & <-). exists r, d. split; [exact R|]. split; [exact D|]. symmetry. apply drawn_utf16. now apply (P r d).
    + intros (r & d & R & D & <-). exists (utf16 (dl_name d)). split; [apply drawn_utf16; now apply (P r d)|]. apply MEM. eauto.
Qed.
Definition ex_db (name : gostring) : @db_load Q := {| dl_name := name; dl_sqls := [] |}.
Definition ex_named (l : list gostring) : row := {| tl_time := LoadChartsProperties.ex_hour 100; tl_dbs := map ex_db l |}.
Lemma js_sort : is_sort js_less (LoadChartsProperties.sort_by js_less).
Proof.
  apply LoadChartsProperties.sort_by_is_sort.
  - intros a b. rewrite !js_less_sltb. apply sltb_asym.
  - intros a b c H1 H2. rewrite js_less_sltb in *. destruct (sltb a c) eqn:E; [|reflexivity]. destruct (sltb b a) eqn:E2.
    + rewrite (sltb_trans _ _ _ E2 E) in H2. discriminate.
    + pose proof (sltb_total _ _ H1 E2). subst b. congruence.
Qed.
Example databases_order_nonvacuous : is_sort js_less (LoadChartsProperties.sort_by js_less) /\
  map drawn_text (page_databases (LoadChartsProperties.sort_by js_less) (Some [ex_named [[65313%N]; lit "b"; ex_smile]; ex_named [lit "b"; lit "a"]]))
    = [lit "a"; lit "b"; ex_smile; [65313%N]].
Proof. split; [apply js_sort|vm_compute; reflexivity]. Qed.
(** They are the ones of the model with code points if no name has a character beyond
    U+FFFF, or none has one between U+E000 and U+FFFF. *)
Theorem databases_same : forall srt srt' rows, is_sort js_less srt -> is_sort sltb srt' -> (forall r d, In r rows -> In d (tl_dbs r) -> proper (dl_name d)) ->
  ((forall r d c, In r rows -> In d (tl_dbs r) -> In c (dl_name d) -> (c < 65536)%N) \/
   (forall r d c, In r rows -> In d (tl_dbs r) -> In c (dl_name d) -> ~ (57344 <= c < 65536)%N)) ->
  Forall2 text_units (all_databases srt' (Some rows)) (page_databases srt (Some rows)).
Proof.
  intros srt srt' rows HS HS' P K. destruct (databases_order srt rows HS P) as (_ & l & F & SO & MEM). enough (all_databases srt' (Some rows) = l) as -> by exact F.
  destruct (LoadChartsProperties.databases_listed srt' rows HS') as (_ & SO' & MEM').
  assert (forall a b, In a l -> In b l -> (text_before a b <-> Utf8Spec.lex_less a b)) as SAME.
  { intros a b A B. apply MEM in A as (r & d & R & D & <-). apply MEM in B as (r' & d' & R' & D' & <-). apply before_same; [now apply (P r d)|now apply (P r' d')|].
    destruct K as [K|K]; [left|right]; apply Forall_forall; intros c C; apply in_app_or in C as [C|C]; eauto. }
  assert (StronglySorted Utf8Spec.lex_less l) as SL.
  { clear F MEM. induction SO as [|x l SO IH HF]; [constructor|]. constructor; [apply IH; intros a b A B; apply SAME; now right|].
    rewrite Forall_forall in *. intros y Y. apply SAME; [now left|now right|now apply HF]. }
  apply (CatalogReadProofs.sorted_unique Utf8Spec.lex_less).
  - intros x X. apply (Utf8Proofs.lex_asym _ _ X X).
  - intros x y. apply Utf8Proofs.lex_asym.
  - clear SL SAME F MEM SO MEM'. induction SO' as [|x xs SO IH HF]; [constructor|]. constructor; [exact IH|]. rewrite Forall_forall in *. intros y Y.
    apply Utf8Proofs.sltb_lex. now apply LoadChartsProofs.sltb_before, HF.
  - exact SL.
  - intros db. rewrite MEM', MEM. reflexivity.
Qed.
Example databases_same_nonvacuous : page_databases (LoadChartsProperties.sort_by js_less) (Some LoadChartsProperties.ex_rows) = [lit "a"; lit "b"].
Proof. vm_compute. reflexivity. Qed.
(** In general they are not, and then the page opens with another database. *)
Theorem databases_same_refuted : ~ (forall srt srt' rows, is_sort js_less srt -> is_sort sltb srt' -> (forall r d, In r rows -> In d (tl_dbs r) -> proper (dl_name d)) ->
  Forall2 text_units (first_database (all_databases srt' (Some rows))) (first_database (page_databases srt (Some rows)))).
Proof.
  intros H. specialize (H (LoadChartsProperties.sort_by js_less) (LoadChartsProperties.sort_by sltb) [ex_named [[65313%N]; ex_smile]] js_sort
    (proj1 LoadChartsProperties.databases_listed_nonvacuous)).
  assert (forall r d, In r [ex_named [[65313%N]; ex_smile]] -> In d (tl_dbs r) -> proper (dl_name d)) as P.
  { intros r d [<- |[]] [<- |[<- |[]]]; apply proper_lit; reflexivity. }
  specialize (H P).
  assert (Forall2 text_units [[65313%N]] [[55357; 56832]%N]) as K by exact H.
  inversion K as [|x y l l' T _]; subst. apply text_units_eq in T. discriminate T.
Qed.

Print Assumptions utf16_right.
Print Assumptions legend_text.
Print Assumptions legend_same.
Print Assumptions legends_distinct.
Print Assumptions legends_distinct_refuted.
Print Assumptions heading_text.
Print Assumptions heading_same.
Print Assumptions heading_same_refuted.
Print Assumptions databases_order.
Print Assumptions databases_same.
Print Assumptions databases_same_refuted.
