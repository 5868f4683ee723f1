(** C119, C120: what the tooltips show. *)
From Coq Require Import String List NArith ZArith QArith Bool Lia Arith Permutation.
From Verif Require Import Base IndexBuild ExplainTree PlanView Pi LoadCharts LoadChartsSpec LoadChartsProofs LoadChartsProperties Tooltip TooltipSpec.
Import ListNotations.
Local Open Scope nat_scope.

(** ** Reading texts put together *)
(** The browser is between tags after the text, and its last character begins nothing. *)
Fixpoint settled (st : reading) (s : gostring) : bool :=
  match s with
  | [] => match st with Data => true | _ => false end
  | c :: s' =>
      negb (match s' with [] => N.eqb c 60 || N.eqb c 38 | _ => false end) &&
      let data :=
        if N.eqb c 60 && begins tag_char s' then settled (InTag []) s'
        else if N.eqb c 38 && begins ref_char s' then settled (InRef []) s'
        else settled Data s' in
      match st with
      | Data => data
      | InTag t => if N.eqb c 62 then settled Data s' else settled (InTag (t ++ [c])) s'
      | InRef r => if ref_char c then settled (InRef (r ++ [c])) s' else if N.eqb c 59 then settled Data s' else data
      end
  end.
Lemma settled_app : forall a st b, settled st a = true -> html st (a ++ b) = html st a ++ html Data b.
Proof.
  induction a as [|c a IH]; intros st b H.
  - destruct st; [reflexivity|discriminate H|discriminate H].
  - cbn [settled] in H. apply andb_true_iff in H. destruct H as [H1 H].
    assert (B : forall f, (N.eqb c 60 && begins f (a ++ b) = N.eqb c 60 && begins f a) /\ (N.eqb c 38 && begins f (a ++ b) = N.eqb c 38 && begins f a)).
    { intros f. destruct a as [|x a]; [|split; reflexivity]. apply negb_true_iff, orb_false_iff in H1. destruct H1 as [-> ->]. split; reflexivity. }
    assert (D : (if N.eqb c 60 && begins tag_char a then settled (InTag []) a
        else if N.eqb c 38 && begins ref_char a then settled (InRef []) a else settled Data a) = true ->
      (if N.eqb c 60 && begins tag_char (a ++ b) then html (InTag []) (a ++ b)
        else if N.eqb c 38 && begins ref_char (a ++ b) then html (InRef []) (a ++ b) else Chr c :: html Data (a ++ b)) =
      (if N.eqb c 60 && begins tag_char a then html (InTag []) a
        else if N.eqb c 38 && begins ref_char a then html (InRef []) a else Chr c :: html Data a) ++ html Data b).
    { intros K. rewrite (proj1 (B tag_char)), (proj2 (B ref_char)). destruct (N.eqb c 60 && begins tag_char a); [now apply IH|].
      destruct (N.eqb c 38 && begins ref_char a); [now apply IH|]. cbn [app]. f_equal. now apply IH. }
    cbn [html app]. cbv zeta in H |- *. destruct st as [|t|r].
    + now apply D.
    + destruct (N.eqb c 62); [cbn [app]; f_equal; now apply IH|now apply IH].
    + destruct (ref_char c); [now apply IH|]. destruct (N.eqb c 59); [cbn [app]; f_equal; now apply IH|]. cbn [app]. f_equal. now apply D.
Qed.
(** Nothing that could end a bracket or ampersand before it *)
Definition harmless (s : gostring) : bool := negb (begins tag_char s) && negb (begins ref_char s).
Lemma plain_app : forall t b, plain t = true -> harmless b = true -> html Data (t ++ b) = map Chr t ++ html Data b.
Proof.
  induction t as [|c t IH]; intros b P H; [reflexivity|]. cbn [plain] in P. apply andb_true_iff in P. destruct P as [P P3].
  apply andb_true_iff in P. destruct P as [P1 P2]. apply negb_true_iff in P1, P2. cbn [app html map].
  assert (B : N.eqb c 60 && begins tag_char (t ++ b) = false /\ N.eqb c 38 && begins ref_char (t ++ b) = false).
  { destruct t as [|x t]; [|split; assumption]. unfold harmless in H. apply andb_true_iff in H. destruct H as [H1 H2].
    apply negb_true_iff in H1, H2. cbn [app]. rewrite H1, H2. split; apply andb_false_r. }
  destruct B as [-> ->]. f_equal. now apply IH.
Qed.
Lemma plain_end : forall t, plain t = true -> html Data t = map Chr t.
Proof. intros t H. pose proof (plain_app t [] H eq_refl) as K. rewrite !app_nil_r in K. exact K. Qed.
Lemma shown_chars : forall t, flat_map shown (map Chr t) = t.
Proof. induction t as [|c t IH]; [reflexivity|]. cbn [map flat_map shown app]. now rewrite IH. Qed.
Lemma tags_chars : forall t, flat_map (fun t => match t with Tag t => [t] | _ => [] end) (map Chr t) = [].
Proof. induction t as [|c t IH]; [reflexivity|]. cbn [map flat_map]. exact IH. Qed.
Lemma visible_lit : forall a b, settled Data a = true -> visible (a ++ b) = visible a ++ visible b.
Proof. intros a b H. unfold visible. rewrite settled_app by assumption. apply flat_map_app. Qed.
Lemma visible_plain : forall t b, plain t = true -> harmless b = true -> visible (t ++ b) = t ++ visible b.
Proof. intros t b H K. unfold visible. rewrite plain_app by assumption. rewrite flat_map_app. now rewrite shown_chars. Qed.
Lemma tags_lit : forall a b, settled Data a = true -> tags (a ++ b) = tags a ++ tags b.
Proof. intros a b H. unfold tags. rewrite settled_app by assumption. apply flat_map_app. Qed.
Lemma tags_plain : forall t b, plain t = true -> harmless b = true -> tags (t ++ b) = tags b.
Proof. intros t b H K. unfold tags. rewrite plain_app by assumption. rewrite flat_map_app. now rewrite tags_chars. Qed.

Lemma not_in_bool : forall (x : N) l, existsb (N.eqb x) l = false -> ~ In x l.
Proof. intros x l H K. assert (existsb (N.eqb x) l = true) by (apply existsb_exists; exists x; split; [exact K|apply N.eqb_refl]). congruence. Qed.

Section C119.
  Context (fix2 : Q -> gostring) (utc : Z -> gostring).
  Hypothesis FIX : forall q, plain (fix2 q) = true.
  Hypothesis UTC : forall z, plain (utc z) = true.

  (** The tooltip of a load: its elements, and what is read in them. *)
  Theorem load_max_shown : forall p, plain (pr_db p) = true -> plain (pr_sql p) = true ->
      tags (load_max_tooltip fix2 utc p) =
        [lit "div style='max-width: 500px; white-space: normal; max-height: 300px'"; lit "br /"; lit "br /";
         lit "div style='margin-bottom: 10px;'"; lit "span style='font-weight: bold;'"; lit "/span"; lit "/div";
         lit "span style='white-space: break-spaces'"; lit "/span"; lit "/div"] /\
      visible (load_max_tooltip fix2 utc p) =
        lit "
    
      " ++ utc (pr_date p) ++ lit "
      Database: " ++ pr_db p ++ lit "
      
        db.load.avg:" ++ [160%N] ++ lit "
        
          " ++ fix2 (pr_percent p) ++ lit "%
        
      
      " ++ pr_sql p ++ lit "
    
    ".
  Proof using FIX UTC.
    intros p D S. unfold load_max_tooltip. split.
    - rewrite tags_lit by (vm_compute; reflexivity). rewrite tags_plain by (try reflexivity; apply UTC).
      rewrite tags_lit by (vm_compute; reflexivity). rewrite tags_plain by (try reflexivity; exact D).
      rewrite tags_lit by (vm_compute; reflexivity). rewrite tags_plain by (try reflexivity; apply FIX).
      rewrite tags_lit by (vm_compute; reflexivity). rewrite tags_plain by (try reflexivity; exact S). vm_compute. reflexivity.
    - rewrite visible_lit by (vm_compute; reflexivity). rewrite visible_plain by (try reflexivity; apply UTC).
      rewrite visible_lit by (vm_compute; reflexivity). rewrite visible_plain by (try reflexivity; exact D).
      rewrite visible_lit by (vm_compute; reflexivity). rewrite visible_plain by (try reflexivity; apply FIX).
      rewrite visible_lit by (vm_compute; reflexivity). rewrite visible_plain by (try reflexivity; exact S). reflexivity.
  Qed.

  Theorem load_sum_shown : forall r, plain (rk_db r) = true -> plain (rk_sql r) = true ->
      tags (load_sum_tooltip fix2 r) =
        [lit "div style='max-width: 500px; white-space: normal; max-height: 300px'"; lit "br /";
         lit "div style='margin-bottom: 10px;'"; lit "span style='font-weight: bold;'"; lit "/span"; lit "/div";
         lit "span style='white-space: break-spaces'"; lit "/span"; lit "/div"] /\
      visible (load_sum_tooltip fix2 r) =
        lit "
    
      Database: " ++ rk_db r ++ lit "
      
        Sum of db.load.avg:" ++ [160%N] ++ lit "
        
          " ++ fix2 (rk_percent r) ++ lit "%
        
      
      " ++ rk_sql r ++ lit "
    
    ".
  Proof using FIX.
    intros p D S. unfold load_sum_tooltip. split.
    - rewrite tags_lit by (vm_compute; reflexivity). rewrite tags_plain by (try reflexivity; exact D).
      rewrite tags_lit by (vm_compute; reflexivity). rewrite tags_plain by (try reflexivity; apply FIX).
      rewrite tags_lit by (vm_compute; reflexivity). rewrite tags_plain by (try reflexivity; exact S). vm_compute. reflexivity.
    - rewrite visible_lit by (vm_compute; reflexivity). rewrite visible_plain by (try reflexivity; exact D).
      rewrite visible_lit by (vm_compute; reflexivity). rewrite visible_plain by (try reflexivity; apply FIX).
      rewrite visible_lit by (vm_compute; reflexivity). rewrite visible_plain by (try reflexivity; exact S). reflexivity.
  Qed.

  (** A tag in an SQL becomes an element of the page (finding): any tag, any percentage. *)
  Lemma in_tag : forall m t b, ~ In 62%N m -> html (InTag t) (m ++ 62%N :: b) = Tag (t ++ m) :: html Data b.
  Proof.
    induction m as [|c m IH]; intros t b H; [cbn [app html]; rewrite N.eqb_refl, app_nil_r; reflexivity|].
    cbn [app html]. destruct (N.eqb_spec c 62) as [->|_]; [elim H; now left|]. rewrite IH by (intros K; apply H; now right).
    now rewrite <- app_assoc.
  Qed.
  Lemma tags_tag : forall m b, begins tag_char m = true -> ~ In 62%N m -> tags (60%N :: m ++ 62%N :: b) = m :: tags b.
  Proof.
    intros m b H N. unfold tags. cbn [html]. assert (B : begins tag_char (m ++ 62%N :: b) = true) by (destruct m; [discriminate H|exact H]).
    rewrite B. cbn [andb N.eqb Pos.eqb]. rewrite in_tag by exact N. reflexivity.
  Qed.
  Theorem load_sql_becomes_markup : forall p a m b, plain (pr_db p) = true ->
      pr_sql p = a ++ 60%N :: m ++ 62%N :: b -> plain a = true -> begins tag_char m = true -> ~ In 62%N m ->
      In m (tags (load_max_tooltip fix2 utc p)).
  Proof using FIX UTC.
    intros p a m b D E A M N. unfold load_max_tooltip. rewrite E.
    rewrite tags_lit by (vm_compute; reflexivity). rewrite tags_plain by (try reflexivity; apply UTC).
    rewrite tags_lit by (vm_compute; reflexivity). rewrite tags_plain by (try reflexivity; exact D).
    rewrite tags_lit by (vm_compute; reflexivity). rewrite tags_plain by (try reflexivity; apply FIX).
    rewrite tags_lit by (vm_compute; reflexivity). do 4 (apply in_or_app; right).
    rewrite <- !app_assoc. rewrite tags_plain by (try reflexivity; exact A). cbn [app]. rewrite <- !app_assoc. cbn [app].
    rewrite tags_tag by assumption. now left.
  Qed.

  (** Pointing at a point of a timeline: its row's load, or a TypeError where the SQL has
      none. *)
  Theorem hover_timeline_shown : forall targets threshold rows i j s r, Forall distinct_row rows ->
      nth_error (load_series targets threshold rows) i = Some s -> nth_error rows j = Some r ->
      (exists l p, drawn_load targets threshold r (se_db s) (se_name s) l /\
         hover_timeline fix2 utc targets threshold rows i j = Ok (load_max_tooltip fix2 utc p) /\
         at_milli r (pr_date p) /\ (pr_percent p == 100 * sl_max l)%Q /\ pr_db p = se_db s /\ pr_sql p = se_name s) \/
      ((forall l, ~ drawn_load targets threshold r (se_db s) (se_name s) l) /\
       hover_timeline fix2 utc targets threshold rows i j = Panic).
  Proof using.
    intros targets threshold rows i j s r D S R. destruct (load_series_aligned targets threshold rows D) as (_ & _ & A).
    destruct (A s (nth_error_In _ _ S)) as (L & P). destruct (nth_error (se_data s) j) as [p|] eqn:E.
    2: { apply nth_error_None in E. assert (j < length rows) by (apply nth_error_Some; congruence). lia. }
    unfold hover_timeline. rewrite S, E. destruct (P j r p R E) as [(l & K1 & _ & _ & pr & -> & K2 & K3 & K4 & K5 & _)|(K1 & _ & ->)].
    - left. exists l, pr. split; [exact K1|]. split; [reflexivity|]. now split.
    - right. split; [exact K1|reflexivity].
  Qed.
  Theorem hover_ranking_shown : forall keys srt count targets rows j r, (forall l, Permutation (keys l) l) -> is_sort rank_less srt ->
      nth_error (ranking keys srt count targets rows) j = Some r ->
      hover_ranking fix2 keys srt count targets rows j = Ok (load_sum_tooltip fix2 r) /\
      In (rk_db r) targets /\ occurs_in rows (rk_db r) (rk_sql r) /\
      (forall q, total_load (rk_db r) (rk_sql r) (table_loads rows) q -> (rk_percent r == 100 * q)%Q).
  Proof using.
    intros keys srt count targets rows j r K S R. unfold hover_ranking. rewrite R. split; [reflexivity|].
    destruct (ranking_top keys srt count targets rows K S) as (_ & T & _). destruct (T r (nth_error_In _ _ R)) as (T1 & T2 & T3 & _).
    split; [exact T1|]. split; [exact T2|exact T3].
  Qed.
End C119.

Definition ex_fix2 (q : Q) : gostring := lit "12.50".
Definition ex_utc (z : Z) : gostring := lit "Sun, 01 Jan 2023 00:00:00 GMT".
Definition ex_prop (sql : string) : point_prop :=
  {| pr_date := 0; pr_percent := 25 # 2; pr_db := lit "shop"; pr_sql := lit sql; pr_tok := lit "t" |}.
Example load_max_shown_nonvacuous : (forall q, plain (ex_fix2 q) = true) /\ (forall z, plain (ex_utc z) = true) /\
    plain (pr_db (ex_prop "SELECT * FROM users WHERE age < 20 && id > 3")) = true /\
    plain (pr_sql (ex_prop "SELECT * FROM users WHERE age < 20 && id > 3")) = true.
Proof. split; [reflexivity|]. split; [reflexivity|]. split; [reflexivity|vm_compute; reflexivity]. Qed.
Example load_sum_shown_nonvacuous : let r := {| rk_db := lit "shop"; rk_sql := lit "SELECT 1 < 2"; rk_percent := 3; rk_tok := []; rk_date := 0 |} in
    plain (rk_db r) = true /\ plain (rk_sql r) = true.
Proof. split; vm_compute; reflexivity. Qed.
Example load_sql_becomes_markup_nonvacuous : let p := ex_prop "SELECT '<img src=x onerror=alert(1)>'" in
    pr_sql p = lit "SELECT '" ++ 60%N :: lit "img src=x onerror=alert(1)" ++ 62%N :: lit "'" /\ plain (lit "SELECT '") = true /\
    begins tag_char (lit "img src=x onerror=alert(1)") = true /\ ~ In 62%N (lit "img src=x onerror=alert(1)").
Proof.
  split; [reflexivity|]. split; [reflexivity|]. split; [reflexivity|]. vm_compute. intros K. decompose [or] K; try discriminate; easy.
Qed.
Example hover_timeline_shown_nonvacuous : Forall distinct_row ex_rows /\
    (exists s, nth_error (load_series [lit "b"] (5 # 1000) ex_rows) 0 = Some s) /\
    (exists t, hover_timeline ex_fix2 ex_utc [lit "b"] (5 # 1000) ex_rows 0 0 = Ok t) /\
    hover_timeline ex_fix2 ex_utc [lit "b"] (5 # 1000) ex_rows 0 1 = Panic.
Proof.
  split; [repeat constructor; cbn; intuition discriminate|]. split; [eexists; vm_compute; reflexivity|].
  split; [eexists; vm_compute; reflexivity|vm_compute; reflexivity].
Qed.
Example hover_ranking_shown_nonvacuous : exists r,
    nth_error (ranking (fun x => x) (sort_by rank_less) 2 [lit "b"] ex_rows) 0 = Some r.
Proof. eexists. vm_compute. reflexivity. Qed.

(** Not every point answers to being pointed at (finding): the points at zero have no
    data. *)
Theorem hover_timeline_refuted :
  ~ (forall fix2 utc targets threshold rows i j s r, Forall distinct_row rows ->
       nth_error (load_series targets threshold rows) i = Some s -> nth_error rows j = Some r ->
       hover_timeline fix2 utc targets threshold rows i j <> Panic).
Proof.
  intros H. destruct hover_timeline_shown_nonvacuous as (D & (s & S) & _ & P).
  exact (H ex_fix2 ex_utc _ _ _ 0 1 s _ D S eq_refl P).
Qed.
(** Not every SQL is shown as it is (finding): what follows a bracket and a letter is taken
    for a tag. *)
Theorem load_sql_shown_refuted :
  ~ (forall fix2 utc p, (forall q, plain (fix2 q) = true) -> (forall z, plain (utc z) = true) -> plain (pr_db p) = true ->
       exists a b, visible (load_max_tooltip fix2 utc p) = a ++ pr_sql p ++ b).
Proof.
  intros H. destruct (H ex_fix2 ex_utc (ex_prop "SELECT * FROM t WHERE a<b") ltac:(reflexivity) ltac:(reflexivity) ltac:(reflexivity)) as (a & b & E).
  assert (I : In 60%N (visible (load_max_tooltip ex_fix2 ex_utc (ex_prop "SELECT * FROM t WHERE a<b")))).
  { rewrite E. apply in_or_app. right. apply in_or_app. left. vm_compute. do 23 right. now left. }
  revert I. apply not_in_bool. vm_compute. reflexivity.
Qed.

(** ** C120 *)
Lemma plain_parts : forall a b, plain (a ++ b) = true -> plain a = true /\ plain b = true.
Proof.
  induction a as [|c a IH]; intros b H; [split; [reflexivity|exact H]|]. cbn [app plain] in H |- *.
  apply andb_true_iff in H. destruct H as [H H3]. destruct (IH b H3) as [-> ->]. split; [|reflexivity].
  rewrite andb_true_r. destruct a as [|x a]; [|exact H]. cbn [begins]. rewrite !andb_false_r. reflexivity.
Qed.
Lemma plain_join : forall t b, plain t = true -> plain b = true -> harmless b = true -> plain (t ++ b) = true.
Proof.
  induction t as [|c t IH]; intros b P B H; [exact B|]. cbn [plain app] in P |- *. apply andb_true_iff in P. destruct P as [P P3].
  rewrite (IH b P3 B H), andb_true_r. destruct t as [|x t]; [|exact P]. cbn [app]. unfold harmless in H.
  apply andb_true_iff in H. destruct H as [H1 H2]. apply negb_true_iff in H1, H2. rewrite H1, H2, !andb_false_r. reflexivity.
Qed.
Lemma js_space_white : forall c, js_space c = true <-> white c.
Proof.
  intros c. unfold js_space, white. rewrite !orb_true_iff, !andb_true_iff, !N.leb_le, !N.eqb_eq. cbn [In]. split.
  - intros H. lia.
  - intros H. decompose [or] H; try subst c; try easy; lia.
Qed.
Lemma trim_left_spec : forall s, exists a, s = a ++ trim_left s /\ Forall white a /\ forall c t, trim_left s = c :: t -> ~ white c.
Proof.
  induction s as [|c s (a & E & A & N)]; [exists []; split; [reflexivity|split; [constructor|easy]]|]. cbn [trim_left].
  destruct (js_space c) eqn:J.
  - exists (c :: a). split; [cbn [app]; now rewrite <- E|]. split; [constructor; [now apply js_space_white|exact A]|exact N].
  - exists []. split; [reflexivity|]. split; [constructor|]. intros c' t K. injection K as <- _. intros W. apply js_space_white in W. congruence.
Qed.
Lemma trim_spec : forall s, trimmed (trim s) s.
Proof.
  intros s. unfold trim, trimmed. destruct (trim_left_spec s) as (a & E & A & N). destruct (trim_left_spec (rev (trim_left s))) as (b & E2 & B & N2).
  apply (f_equal (@rev _)) in E2. rewrite rev_involutive, rev_app_distr in E2. exists a, (rev b). split; [rewrite <- E2; exact E|].
  split; [exact A|]. split; [now apply Forall_rev|]. split.
  - intros c t K. apply (N c (t ++ rev b)). rewrite E2, K. reflexivity.
  - intros c t K. apply (N2 c (rev t)). apply (f_equal (@rev _)) in K. rewrite rev_involutive, rev_app_distr in K. exact K.
Qed.
Lemma short_heading : forall s, heading s (short_text s).
Proof.
  intros s. exists (trim s). split; [apply trim_spec|]. unfold short_text. cbv zeta. destruct (Nat.ltb_spec 50 (length (trim s))) as [K|K].
  - right. exists (firstn 50 (trim s)), (skipn 50 (trim s)). split; [now rewrite firstn_skipn|]. split; [rewrite firstn_length; lia|].
    split; [|reflexivity]. intros E. apply (f_equal (@length _)) in E. rewrite skipn_length in E. cbn [length] in E. lia.
  - left. split; [exact K|]. now apply firstn_all2.
Qed.
Lemma heading_plain : forall s h, plain s = true -> heading s h -> plain h = true.
Proof.
  intros s h P (core & (a & b & -> & _) & H). apply plain_parts in P. destruct P as [_ P]. apply plain_parts in P. destruct P as [P _].
  destruct H as [(_ & ->)|(x & y & -> & _ & _ & ->)]; [exact P|]. apply plain_parts in P. destruct P as [P _].
  apply plain_join; [exact P|reflexivity|reflexivity].
Qed.

Section C120.
  Context (num : Q -> gostring) (int : Z -> gostring).
  Hypothesis NUM : forall q, plain (num q) = true.
  Hypothesis INT : forall z, plain (int z) = true.
  Lemma dash_plain : forall A (f : A -> gostring) x, (forall a, plain (f a) = true) -> plain (or_dash f x) = true.
  Proof. intros A f [a|] H; [apply H|reflexivity]. Qed.
  Lemma template_plain : forall A (f : A -> gostring) x, (forall a, plain (f a) = true) -> plain (in_template f x) = true.
  Proof. intros A f [a|] H; [apply H|reflexivity]. Qed.
  Lemma dash_value : forall A (f : A -> gostring) x, or_dash f x = value f "-" x.
  Proof. reflexivity. Qed.
  Lemma template_value : forall A (f : A -> gostring) x, in_template f x = value f "null" x.
  Proof. reflexivity. Qed.
  Lemma truthy_spec : forall x, truthy x = true <-> exists q, x = Some q /\ ~ (q == 0)%Q.
  Proof.
    intros [q|]; cbn [truthy]; [|split; [discriminate|intros (q & K & _); discriminate K]]. rewrite negb_true_iff. split.
    - intros H. exists q. split; [reflexivity|]. intros K. apply Qeq_bool_iff in K. congruence.
    - intros (q' & K & N). injection K as <-. apply not_true_iff_false. intros K. apply N. now apply Qeq_bool_iff.
  Qed.
  Lemma cell_shown : forall t b, plain t = true -> harmless b = true -> visible (table_cell t ++ b) = table_name t ++ visible b.
  Proof.
    intros [|c t] b T B; unfold table_cell, table_name; [now apply visible_plain|]. rewrite <- app_assoc.
    rewrite visible_lit by (vm_compute; reflexivity). rewrite visible_plain by assumption. reflexivity.
  Qed.
  Lemma init_shown : forall x b, visible ((if truthy x then lit "<div>Initial cost (estimated) : " ++ in_template num x ++ lit "</div>" else []) ++ b) =
      (if truthy x then lit "Initial cost (estimated) : " ++ value num "null" x else []) ++ visible b.
  Proof using NUM.
    intros x b. destruct (truthy x); [|reflexivity]. rewrite <- !app_assoc. rewrite visible_lit by (vm_compute; reflexivity).
    rewrite visible_plain by (try reflexivity; now apply template_plain). rewrite visible_lit by (vm_compute; reflexivity). reflexivity.
  Qed.
  Lemma time_shown : forall (c : bool) x b,
      visible ((if c then lit "<div>Time per loop (actual) : " ++ or_dash num x ++ lit "</div>"
                else lit "<div>Time (actual) : " ++ or_dash num x ++ lit "</div>") ++ b) =
      (if c then lit "Time per loop (actual) : " else lit "Time (actual) : ") ++ value num "-" x ++ visible b.
  Proof using NUM.
    intros c x b. destruct c; rewrite <- !app_assoc; rewrite visible_lit by (vm_compute; reflexivity);
    rewrite visible_plain by (try reflexivity; now apply dash_plain); rewrite visible_lit by (vm_compute; reflexivity); reflexivity.
  Qed.
  Lemma range_shown : forall (c : bool) x y b, harmless b = true ->
      visible ((if c then in_template num x ++ lit " ~ " ++ in_template num y else lit "-") ++ b) =
      (if c then value num "null" x ++ lit " ~ " ++ value num "null" y else lit "-") ++ visible b.
  Proof using NUM.
    intros [|] x y b B; [|now apply visible_plain]. rewrite <- !app_assoc. rewrite visible_plain by (try reflexivity; now apply template_plain).
    rewrite visible_lit by (vm_compute; reflexivity). rewrite visible_plain by (try assumption; now apply template_plain). reflexivity.
  Qed.
  Ltac piece := match goal with
    | |- context [visible (of_string ?s ++ ?b)] =>
        rewrite (visible_lit (of_string s) b) by (vm_compute; reflexivity);
        let v := eval vm_compute in (visible (of_string s)) in change (visible (of_string s)) with v
    | |- context [visible (table_cell ?t ++ ?b)] => rewrite (cell_shown t b) by (first [assumption | reflexivity])
    | |- context [visible ((if truthy (vn_init_cost _) then _ else _) ++ ?b)] => rewrite init_shown
    | |- context [visible ((if several _ then _ else _) ++ ?b)] => rewrite time_shown
    | |- context [visible ((if truthy _ then _ else _) ++ ?b)] => rewrite range_shown by reflexivity
    | |- context [visible (?t ++ ?b)] =>
        rewrite (visible_plain t b) by (first [assumption | (apply dash_plain; assumption) | (apply template_plain; assumption) | reflexivity])
    end.

  Theorem postgres_tooltip_shown : forall n, plain (vn_text n) = true -> plain (vn_table n) = true ->
      exists h time, heading (vn_text n) h /\
      ((exists a b, vn_time_first n = Some a /\ ~ (a == 0)%Q /\ b = vn_time_avg n /\ time = num a ++ lit " ~ " ++ value num "null" b) \/
       ((forall a, vn_time_first n = Some a -> (a == 0)%Q) /\ time = lit "-")) /\
      visible (postgres_tooltip num int n) = lit "
      
        " ++ h ++ lit "
        Table:
          " ++ table_name (vn_table n) ++ lit "
        
        Initial cost (estimated) : " ++ value num "null" (vn_init_cost n) ++ lit "
        Cost (estimated) : " ++ value num "null" (vn_cost n) ++ lit "
        Rows returned (estimated) : " ++ value int "null" (vn_rows n) ++ lit "
        Width (estimated) : " ++ value int "null" (vn_width n) ++ lit "
        
        Time (actual) :  " ++ time ++ lit "
        Rows returned (actual) : " ++ value int "-" (vn_returned n) ++ lit "
        Loop count (actual) : " ++ value int "-" (vn_loops n) ++ lit "
      ".
  Proof using NUM INT.
    intros n T B. exists (short_text (vn_text n)).
    exists (if truthy (vn_time_first n) then value num "null" (vn_time_first n) ++ lit " ~ " ++ value num "null" (vn_time_avg n) else lit "-").
    split; [apply short_heading|].
    assert (H : plain (short_text (vn_text n)) = true) by (eapply heading_plain; [exact T|apply short_heading]). split.
    - destruct (truthy (vn_time_first n)) eqn:E.
      + apply truthy_spec in E. destruct E as (q & E & N). left. exists q, (vn_time_avg n). rewrite E. now repeat split.
      + right. split; [|reflexivity]. intros a Ea. destruct (Qeq_bool a 0) eqn:Q0; [now apply Qeq_bool_iff|].
        rewrite Ea in E. cbn [truthy] in E. rewrite Q0 in E. discriminate E.
    - unfold postgres_tooltip. repeat piece. reflexivity.
  Qed.

  Theorem mysql_tooltip_shown : forall n, plain (vn_text n) = true -> plain (vn_table n) = true ->
      exists h init time, heading (vn_text n) h /\
      ((exists q, vn_init_cost n = Some q /\ ~ (q == 0)%Q /\ init = lit "Initial cost (estimated) : " ++ num q) \/
       ((forall q, vn_init_cost n = Some q -> (q == 0)%Q) /\ init = [])) /\
      ((exists k, vn_loops n = Some k /\ (1 < k)%Z /\ time = lit "Time per loop (actual) : ") \/
       ((forall k, vn_loops n = Some k -> (k <= 1)%Z) /\ time = lit "Time (actual) : ")) /\
      visible (mysql_tooltip num int n) = lit "
      
        " ++ h ++ lit "
        Table:
          " ++ table_name (vn_table n) ++ lit "
        
        " ++ init ++ lit "
        Cost (estimated) : " ++ value num "-" (vn_cost n) ++ lit "
        Rows returned (estimated) : " ++ value int "-" (vn_rows n) ++ lit "
        Time first row (actual) : " ++ value num "-" (vn_time_first n) ++ lit "
        " ++ time ++ value num "-" (vn_time_avg n) ++ lit "
        Rows returned (actual) : " ++ value int "-" (vn_returned n) ++ lit "
        Loop count (actual) : " ++ value int "-" (vn_loops n) ++ lit "
      ".
  Proof using NUM INT.
    intros n T B. exists (short_text (vn_text n)).
    exists (if truthy (vn_init_cost n) then lit "Initial cost (estimated) : " ++ value num "null" (vn_init_cost n) else []).
    exists (if several (vn_loops n) then lit "Time per loop (actual) : " else lit "Time (actual) : ").
    split; [apply short_heading|].
    assert (H : plain (short_text (vn_text n)) = true) by (eapply heading_plain; [exact T|apply short_heading]). split; [|split].
    - destruct (truthy (vn_init_cost n)) eqn:E.
      + apply truthy_spec in E. destruct E as (q & E & N). left. exists q. rewrite E. now repeat split.
      + right. split; [|reflexivity]. intros a Ea. destruct (Qeq_bool a 0) eqn:Q0; [now apply Qeq_bool_iff|].
        rewrite Ea in E. cbn [truthy] in E. rewrite Q0 in E. discriminate E.
    - destruct (vn_loops n) as [k|]; cbn [several].
      + destruct (Z.ltb_spec 1 k) as [K|K]; [left; exists k; now repeat split|right]. split; [|reflexivity]. intros k' E. injection E as <-. exact K.
      + right. split; [|reflexivity]. intros k E. discriminate E.
    - unfold mysql_tooltip. repeat piece. reflexivity.
  Qed.

  Theorem hasura_tooltip_shown : forall n, plain (vn_text n) = true -> plain (vn_table n) = true ->
      exists h, heading (vn_text n) h /\
      visible (hasura_tooltip num int n) = lit "
      
        " ++ h ++ lit "
        Table:
          " ++ table_name (vn_table n) ++ lit "
        
        Initial cost (estimated) : " ++ value num "null" (vn_init_cost n) ++ lit "
        Cost (estimated) : " ++ value num "null" (vn_cost n) ++ lit "
        Rows returned (estimated) : " ++ value int "null" (vn_rows n) ++ lit "
        Width (estimated) : " ++ value int "null" (vn_width n) ++ lit "
      ".
  Proof using NUM INT.
    intros n T B. exists (short_text (vn_text n)). split; [apply short_heading|].
    assert (H : plain (short_text (vn_text n)) = true) by (eapply heading_plain; [exact T|apply short_heading]).
    unfold hasura_tooltip. repeat piece. reflexivity.
  Qed.
End C120.

Definition ex_num (q : Q) : gostring := lit "0.05".
Definition ex_int (z : Z) : gostring := lit "12".
Definition ex_vm (text table : string) (first : Q) : vm_node :=
  {| vn_text := lit text; vn_title := lit "t"; vn_table := lit table; vn_init_cost := Some (1 # 4)%Q; vn_cost := Some 2%Q; vn_rows := Some 3%Z;
     vn_width := None; vn_time_first := Some first; vn_time_avg := Some (7 # 2)%Q; vn_returned := Some 2%Z; vn_loops := Some 5%Z |}.
Example tooltips_shown_nonvacuous : (forall q, plain (ex_num q) = true) /\ (forall z, plain (ex_int z) = true) /\
    let n := ex_vm "   -> Filter: ((users.email < 'test31@example.com') and (users.age >= 20))" "users" (1 # 20) in
    plain (vn_text n) = true /\ plain (vn_table n) = true /\
    heading (vn_text n) (lit "-> Filter: ((users.email < 'test31@example.com') a...").
Proof.
  split; [reflexivity|]. split; [reflexivity|]. cbv zeta. split; [vm_compute; reflexivity|]. split; [reflexivity|].
  exact (short_heading (lit "   -> Filter: ((users.email < 'test31@example.com') and (users.age >= 20))")).
Qed.
(** Names in angle brackets, which MySQL's plans use for temporary tables and subqueries,
    are taken for tags and not shown (finding). *)
Theorem mysql_tooltip_brackets_refuted :
  ~ (forall num int n, (forall q, plain (num q) = true) -> (forall z, plain (int z) = true) ->
       exists h a b, heading (vn_text n) h /\ visible (mysql_tooltip num int n) = a ++ h ++ b).
Proof.
  intros H. destruct (H ex_num ex_int (ex_vm "-> Table scan on <temporary>" "<temporary>" 1) ltac:(reflexivity) ltac:(reflexivity)) as (h & a & b & K & E).
  assert (I : In 60%N (visible (mysql_tooltip ex_num ex_int (ex_vm "-> Table scan on <temporary>" "<temporary>" 1)))).
  { rewrite E. apply in_or_app. right. apply in_or_app. left. destruct K as (core & (x & y & ET & WX & WY & _) & C).
    assert (IT : In 60%N (x ++ core ++ y)) by (rewrite <- ET; vm_compute; do 17 right; now left).
    assert (NW : ~ white 60%N) by (vm_compute; intros K; decompose [or] K; try discriminate; easy).
    rewrite !in_app_iff in IT. destruct IT as [IT|[IT|IT]]; [elim NW; rewrite Forall_forall in WX; now apply WX| |elim NW; rewrite Forall_forall in WY; now apply WY].
    destruct C as [(_ & ->)|(c1 & c2 & -> & L & NE & _)]; [exact IT|]. apply (f_equal (@length _)) in ET. rewrite !app_length, L in ET.
    change (length (vn_text (ex_vm "-> Table scan on <temporary>" "<temporary>" 1))) with 28 in ET. lia. }
  revert I. apply not_in_bool. vm_compute. reflexivity.
Qed.
(** PostgreSQL: the time of a node that gave its first row at once is not shown (finding). *)
Theorem postgres_tooltip_time_refuted :
  ~ (forall num int n q, (forall q, plain (num q) = true) -> (forall z, plain (int z) = true) -> vn_time_avg n = Some q ->
       plain (vn_text n) = true -> plain (vn_table n) = true ->
       exists a b, visible (postgres_tooltip num int n) = a ++ num q ++ b).
Proof.
  intros H. destruct (H (fun q => if Qeq_bool q (7 # 2) then lit "3.5!" else lit "1") ex_int (ex_vm "Seq Scan on users" "users" 0) (7 # 2)%Q) as (a & b & E).
  - intros q. destruct (Qeq_bool q (7 # 2)); reflexivity.
  - reflexivity.
  - reflexivity.
  - reflexivity.
  - reflexivity.
  - assert (I : In 33%N (visible (postgres_tooltip (fun q => if Qeq_bool q (7 # 2) then lit "3.5!" else lit "1") ex_int (ex_vm "Seq Scan on users" "users" 0)))).
    { rewrite E. apply in_or_app. right. apply in_or_app. left. vm_compute. do 3 right. now left. }
    revert I. apply not_in_bool. vm_compute. reflexivity.
Qed.

Print Assumptions load_max_shown.
Print Assumptions load_sum_shown.
Print Assumptions load_sql_becomes_markup.
Print Assumptions hover_timeline_shown.
Print Assumptions hover_ranking_shown.
Print Assumptions hover_timeline_refuted.
Print Assumptions load_sql_shown_refuted.
Print Assumptions postgres_tooltip_shown.
Print Assumptions mysql_tooltip_shown.
Print Assumptions hasura_tooltip_shown.
Print Assumptions mysql_tooltip_brackets_refuted.
Print Assumptions postgres_tooltip_time_refuted.
