(** C125: everything a refused suggestion may say. *)
From Coq Require Import String List NArith Bool Lia Arith Permutation.
From Verif Require Import Base IndexText IndexBuild TableFields TableFieldsSpec TableFieldsProofs Existing ExistingSpec ExistingProofs BuildProperties MissingSpec.
From Verif Require MysqlCollect PgSpec PgCollect PgWalkProofs PgFlowProofs PgProperties Hasura RefusalSpec RefusalProperties RefusalPgSpec RefusalPgProperties.
Import ListNotations.
Local Open Scope string_scope.
Local Open Scope list_scope.

Definition as_known (tables : list table) (m : smap gostring) : Prop :=
  forall k n, mget m k = Some n -> n = k \/ exists t, In t tables /\ n = t_name t /\ called t k.
Lemma called_as : forall t, called t (as_or_name t).
Proof. intros t. unfold called, as_or_name. destruct (t_as t); [left; auto|right; split; [discriminate|reflexivity]]. Qed.
Lemma new_info_known : forall db tables ext, as_known tables (i_as (new_info db tables ext)).
Proof.
  intros db tables ext k n H. cbn [new_info i_as] in H. rewrite (mget_fold_mset as_or_name t_name) in H.
  destruct (find (fun b => seqb (as_or_name b) k) (rev tables)) as [t|] eqn:E.
  - injection H as <-. apply find_some in E as [E1 E2]. apply seqb_eq in E2. right. exists t. split; [now apply in_rev|]. split; [reflexivity|]. rewrite <- E2. apply called_as.
  - rewrite (mget_fold_mset (fun k => k) (fun k => k)) in H. destruct (find _ (rev (keys ext))) as [b|] eqn:E'; [|discriminate].
    injection H as <-. apply find_some in E' as [_ E']. apply seqb_eq in E'. now left.
Qed.
Lemma add_sub_known : forall tables ord path i name as_name cols new, as_known tables (i_as i) -> name = as_name \/ (exists t, In t tables /\ name = t_name t /\ called t as_name) ->
    as_known tables (i_as (add_subquery ord path i name as_name cols new)).
Proof.
  intros tables ord path i name as_name cols new H HN k n K. cbn [add_subquery i_as] in K. rewrite mget_mset in K. destruct (seqb_spec k as_name) as [->|HK]; [injection K as <-; exact HN|now apply H].
Qed.
Lemma table_cols_missing : forall tables i k m, as_known tables (i_as i) -> table_cols i k = Err m ->
    m = of_string ": no table found: " ++ k \/ exists t, In t tables /\ called t k /\ m = of_string ": no table found: " ++ t_name t.
Proof.
  intros tables i k m HK H. unfold table_cols in H. destruct (mget (i_as i) k) as [n|] eqn:E; [|injection H as <-; now left].
  destruct (mget (i_int i) n); [discriminate|]. destruct (mget (i_ext i) n); [discriminate|]. injection H as <-.
  destruct (HK k n E) as [->|(t & H1 & -> & H3)]; [now left|]. right. exists t. auto.
Qed.
Lemma refs_missing : forall name fields fscs tables subs ord path i c m, let s := Scope name fields fscs tables subs in
    as_known tables (i_as i) -> mentioned s c -> column_refs ord path i c = Err m -> missing s m.
Proof.
  intros name fields fscs tables subs ord path i c m s HK HC H. unfold column_refs in H.
  assert (T1 : fc_type c <> FStar) by (intros E; rewrite E in H; discriminate). assert (T2 : fc_type c <> FSubquery) by (intros E; rewrite E in H; discriminate).
  assert (H' : match fc_table c with [] => column_infos ord path i (fc_name c) | _ => do cols <- table_cols i (fc_table c); match find_col (fc_name c) cols with Some r => Ok r | None => Err (no_column (fc_name c)) end end = Err m)
    by (destruct (fc_type c); try exact H; congruence). clear H.
  destruct (fc_table c) as [|r t] eqn:ET.
  - unfold column_infos in H'. destruct (find_in_tables _ _); [discriminate|]. destruct (find_in_tables _ _); [discriminate|]. destruct (str_in _ _); [discriminate|]. injection H' as <-. now apply (missing_column s c).
  - rewrite <- ET in H'. destruct (table_cols i (fc_table c)) as [cols|m'|] eqn:E; try discriminate; cbn [obind] in H'.
    + destruct (find_col (fc_name c) cols); [discriminate|]. injection H' as <-. now apply (missing_column s c).
    + injection H' as <-. assert (NE : fc_table c <> []) by (rewrite ET; discriminate). destruct (table_cols_missing tables i (fc_table c) m' HK E) as [->|(x & X1 & X2 & ->)].
      * now apply missing_alias.
      * now apply (missing_table s c x).
Qed.
Section Fields.
Context (ord : order gostring) (HO : is_order ord) (name : gostring) (fields : list field) (fscs : list scope) (tables : list table) (subs : list scope).
Let s := Scope name fields fscs tables subs.
Definition starred (x : gostring) : Prop := exists c, mentioned s c /\ fc_type c = FStar /\ fc_table c = x.
Lemma cols_missing : forall path i cols k rf stars, as_known tables (i_as i) -> (forall c, In c cols -> mentioned s c) -> (forall x, In x stars -> starred x) ->
    match field_cols ord path k i cols rf stars with Ok (_, _, st) => forall x, In x st -> starred x | Err m => missing s m | Panic => True end.
Proof.
  intros path i. induction cols as [|c cols IH]; intros k rf stars HK HC HS; cbn [field_cols]; [exact HS|].
  destruct (column_refs ord (path ++ [k]) i c) as [infos|m|] eqn:E; cbn [obind]; [| |exact I].
  - cbv zeta. match goal with |- context [field_cols ord path (S k) i cols ?a ?b] => specialize (IH (S k) a b HK (fun x K => HC x (or_intror K))); destruct (field_cols ord path (S k) i cols a b) as [[[rest rf2] st]|m|]; cbn [obind] end;
      apply IH; assert (HC' := HC c (or_introl eq_refl)); destruct (fc_type c) eqn:ET; try exact HS; (destruct (str_in (fc_table c) stars); [exact HS|]);
      intros x K; apply in_app_or in K as [K|[<-|[]]]; try (now apply HS); exists c; auto.
  - apply (refs_missing name fields fscs tables subs ord (path ++ [k]) i c m HK); [apply HC; now left|exact E].
Qed.
Lemma loop_missing : forall path i fs k rf stars, as_known tables (i_as i) -> (forall f, In f fs -> In f fields) -> (forall x, In x stars -> starred x) ->
    match fields_loop ord path k i fs rf stars with Ok (_, _, st) => forall x, In x st -> starred x | Err m => missing s m | Panic => True end.
Proof.
  intros path i. induction fs as [|f fs IH]; intros k rf stars HK HF HS; cbn [fields_loop]; [exact HS|].
  pose proof (cols_missing (path ++ [k]) i (f_cols f) 0 rf stars HK (fun c K => ex_intro _ f (conj (HF f (or_introl eq_refl)) K)) HS) as H.
  destruct (field_cols ord (path ++ [k]) 0 i (f_cols f) rf stars) as [[[infos rf1] st1]|m|]; cbn [obind]; [|exact H|exact I].
  specialize (IH (S k) rf1 st1 HK (fun x K => HF x (or_intror K)) H). destruct (fields_loop ord path (S k) i fs rf1 st1) as [[[outs rf2] st2]|m|]; cbn [obind]; exact IH.
Qed.
Lemma stars_missing : forall path i stars k m, as_known tables (i_as i) -> (forall x, In x stars -> starred x) -> star_cols ord path k i stars = Err m -> missing s m.
Proof.
  intros path i. induction stars as [|x stars IH]; intros k m HK HS H; cbn [star_cols] in H; [discriminate|].
  destruct x as [|r x].
  - cbn [obind] in H. destruct (star_cols ord path (S k) i stars) as [rest|m'|] eqn:E; try discriminate. cbn [obind] in H. injection H as <-.
    apply (IH (S k)); auto. intros y K. apply HS. now right.
  - destruct (table_cols i (r :: x)) as [cols|m'|] eqn:E; try discriminate; cbn [obind] in H.
    + destruct (star_cols ord path (S k) i stars) as [rest|m'|] eqn:E'; try discriminate. cbn [obind] in H. injection H as <-. apply (IH (S k)); auto. intros y K. apply HS. now right.
    + injection H as <-. destruct (HS (r :: x) (or_introl eq_refl)) as (c & C1 & C2 & C3). assert (T : fc_type c <> FSubquery) by (rewrite C2; discriminate).
      assert (NE : fc_table c <> []) by (rewrite C3; discriminate). rewrite <- C3 in E.
      destruct (table_cols_missing tables i (fc_table c) m' HK E) as [->|(t & X1 & X2 & ->)]; [now apply missing_alias|now apply (missing_table s c t)].
Qed.
End Fields.
Section Scopes.
Context (ord : order gostring) (HO : is_order ord) (db : smap table_schema).
Lemma calc_missing : forall sc path ext m, calc ord db path sc ext = Err m -> exists s, scope_in sc s /\ missing s m.
Proof.
  induction sc as [name fields fscs tables subs IHf IHs] using scope_ind'. rewrite Forall_forall in IHf, IHs. intros path ext m H. cbn [calc] in H.
  assert (HS : forall l k i, (forall x, In x l -> In x subs) -> as_known tables (i_as i) ->
    match subs_loop ord (calc ord db) path (table_map tables) k l i with Ok i' => as_known tables (i_as i') | Err m => exists s, scope_in (Scope name fields fscs tables subs) s /\ missing s m | Panic => True end).
  { induction l as [|x l IHl]; intros k i HL HK; cbn [subs_loop]; [exact HK|].
    destruct (mget (table_map tables) (scope_name x)) as [t|] eqn:ET; [|exact I].
    destruct (calc ord db (path ++ [0; k]) x _) as [r|m'|] eqn:EC; cbn [obind]; [| |exact I].
    - apply IHl; [intros y K; apply HL; now right|]. apply add_sub_known; [exact HK|]. right. rewrite table_map_get, last_such_find in ET. apply find_some in ET as [T1 T2].
      apply seqb_eq in T2. exists t. split; [now apply in_rev|]. split; [now symmetry|]. apply called_as.
    - destruct (IHs x (HL x (or_introl eq_refl)) _ _ _ EC) as (s & S1 & S2). exists s. split; [|exact S2]. apply (si_sub name fields fscs tables subs x); [apply HL; now left|exact S1]. }
  assert (HF : forall vis l k i, (forall x, In x l -> In x fscs) -> as_known tables (i_as i) ->
    match field_scopes_loop ord (calc ord db) path vis k l i with Ok i' => as_known tables (i_as i') | Err m => exists s, scope_in (Scope name fields fscs tables subs) s /\ missing s m | Panic => True end).
  { intros vis. induction l as [|x l IHl]; intros k i HL HK; cbn [field_scopes_loop]; [exact HK|].
    destruct (calc ord db (path ++ [2; k]) x vis) as [r|m'|] eqn:EC; cbn [obind]; [| |exact I].
    - apply IHl; [intros y K; apply HL; now right|]. apply add_sub_known; [exact HK|now left].
    - destruct (IHf x (HL x (or_introl eq_refl)) _ _ _ EC) as (s & S1 & S2). exists s. split; [|exact S2]. apply (si_field name fields fscs tables subs x); [apply HL; now left|exact S1]. }
  specialize (HS subs 0 (new_info db tables ext) (fun x K => K) (new_info_known db tables ext)).
  destruct (subs_loop ord (calc ord db) path (table_map tables) 0 subs (new_info db tables ext)) as [i1|m1|]; try discriminate; cbn [obind] in H; [|injection H as <-; exact HS].
  specialize (HF (visible i1) fscs 0 i1 (fun x K => K) HS).
  destruct (field_scopes_loop ord (calc ord db) path (visible i1) 0 fscs i1) as [i2|m1|]; try discriminate; cbn [obind] in H; [|injection H as <-; exact HF].
  exists (Scope name fields fscs tables subs). split; [constructor|].
  pose proof (loop_missing ord name fields fscs tables subs (path ++ [4]) i2 fields 0 (i_rf i2) [] HF (fun f K => K) (fun x K => match K with end)) as HL.
  destruct (fields_loop ord (path ++ [4]) 0 i2 fields (i_rf i2) []) as [[[outs rf] stars]|m1|]; try discriminate; cbn [obind] in H; [|injection H as <-; exact HL].
  unfold list_star in H. destruct (star_cols ord ((path ++ [5]) ++ [0]) 0 i2 (ord ((path ++ [5]) ++ [1]) stars)) as [res|m1|] eqn:E; try discriminate. cbn [obind] in H. injection H as <-.
  apply (stars_missing ord name fields fscs tables subs _ i2 _ 0 m1 HF) in E; [exact E|]. intros x K. apply HL. exact (Permutation_in x (HO _ _) K).
Qed.
Theorem build_says : forall ordf srt schemas scs m, db = schema_map schemas -> build ord ordf srt schemas scs = Err m -> exists sc s, In sc scs /\ scope_in sc s /\ missing s m.
Proof.
  intros ordf srt schemas scs m HD H. unfold build in H. rewrite <- HD in H. destruct (build_scopes ord ordf db 0 scs) as [ts|m'|] eqn:E; try discriminate. injection H as <-. revert E. generalize 0.
  induction scs as [|sc scs IH]; intros k E; cbn [build_scopes] in E; [discriminate|].
  destruct (build_from_scope ord ordf db [k] sc) as [ts|m1|] eqn:E1; try discriminate; cbn [obind] in E.
  - destruct (build_scopes ord ordf db (S k) scs) as [rest|m1|] eqn:E2; try discriminate. cbn [obind] in E. injection E as <-. destruct (IH (S k) E2) as (x & s & H1 & H2 & H3). exists x, s. split; [now right|auto].
  - injection E as <-. apply (unknown_table_never_reported ord ordf db [k] sc m1 HO) in E1. unfold table_fields in E1.
    destruct (calc ord db ([k] ++ [0]) sc []) as [r|m2|] eqn:EC; try discriminate. cbn [obind] in E1. injection E1 as <-. destruct (calc_missing _ _ _ _ EC) as (s & S1 & S2). exists sc, s. split; [now left|auto].
Qed.
End Scopes.
Lemma schemas_say : forall select tables m, collect_table_schemas select tables = Err m -> no_such_table select tables m.
Proof.
  intros select tables m H. destruct tables as [|t0 tables]; [injection H as <-; now apply nst_none|]. set (tables' := t0 :: tables) in *.
  assert (NE : tables' <> []) by discriminate. unfold collect_table_schemas in H. cbn [tables'] in H.
  assert (H' : (do rows <- select tables'; check_schemas tables' (create_table_schemas tables' rows)) = Err m) by exact H. clear H.
  destruct (select tables') as [rows|m'|] eqn:E; try discriminate; cbn [obind] in H'; [|injection H' as <-; now apply nst_failed].
  rewrite check_spec in H'. destruct (find _ tables') as [t|] eqn:EF; [|discriminate]. injection H' as <-. apply find_some in EF as [F1 F2].
  apply (nst_view select tables' rows t E F1). intros c pk K. assert (K' : In (t, c, pk) (rows_of t rows)) by (apply filter_In; split; [exact K|apply seqb_refl]).
  destruct (rows_of t rows); [contradiction|discriminate].
Qed.
(** ** MySQL *)
Lemma uniq_nil : forall (A : Type) (eqb : A -> A -> bool) l, uniq eqb l = [] -> l = [].
Proof. intros A eqb [|x l] H; [reflexivity|]. discriminate H. Qed.
Lemma names_nil : forall its, uniq seqb (map (fun p => it_table (nth p its (mk_it [] []))) (uniq Nat.eqb (seq 0 (length its)))) = [] -> its = [].
Proof. intros its H. apply uniq_nil in H. apply map_eq_nil in H. apply uniq_nil in H. destruct its; [reflexivity|discriminate]. Qed.
Lemma first_error_inl : forall A (r : A + list gostring) m, MysqlCollect.first_error r = Err m -> exists errs, r = inr errs /\ (errs <> [] -> exists x, In x errs /\ m = of_string ": " ++ x).
Proof. intros A [x|[|e errs]] m H; [discriminate| |]; injection H as <-; eexists; split; try reflexivity; [congruence|]. intros _. exists e. split; [now left|reflexivity]. Qed.
Lemma first_error_ok : forall A (r : A + list gostring) x, MysqlCollect.first_error r = Ok x -> r = inl x.
Proof. intros A [y|[|e errs]] x H; try discriminate. now injection H as <-. Qed.
Theorem mysql_refusal_words : forall low fold so ord ordf srt columns rows root rest msg, is_order ord ->
    MysqlCollect.mysql_suggest low fold so ord ordf srt columns rows (Ok (root :: rest)) = Err msg ->
    (exists m, RefusalSpec.my_name_complaint root m /\ msg = of_string ": " ++ m) \/
    exists tables, MysqlCollect.collect_table_names low so root = inl tables /\
    (no_such_table columns tables msg \/
     (exists m, RefusalSpec.my_complaint root m /\ msg = of_string ": " ++ m) \/
     exists scopes, MysqlCollect.collect_scopes low root = inl scopes /\
     ((exists sc s, In sc scopes /\ scope_in sc s /\ missing s msg) \/
      exists schemas its, collect_table_schemas columns tables = Ok schemas /\ build ord ordf srt schemas scopes = Ok its /\
      ((its = [] /\ msg = of_string "failed to build query to get table schema: empty slice passed to 'in' query") \/
       exists names, names <> [] /\ rows names = Err msg))).
Proof.
  intros low fold so ord ordf srt columns rows root rest msg HO H. unfold MysqlCollect.mysql_suggest in H. cbn [obind] in H.
  destruct (MysqlCollect.first_error (MysqlCollect.collect_table_names low so root)) as [tables|m|] eqn:E1; try discriminate; cbn [obind] in H.
  2: { injection H as <-. left. destruct (first_error_inl _ _ _ E1) as (errs & X1 & X2). destruct (RefusalProperties.mysql_names_refused_with low so root errs X1) as [N1 N2].
       destruct (X2 N1) as (x & Y1 & Y2). exists x. split; [apply N2; exact Y1|exact Y2]. }
  right. exists tables. split; [now apply first_error_ok|].
  destruct (collect_table_schemas columns tables) as [schemas|m|] eqn:E2; try discriminate; cbn [obind] in H; [|injection H as <-; left; now apply schemas_say]. right.
  destruct (MysqlCollect.first_error (MysqlCollect.collect_scopes low root)) as [scopes|m|] eqn:E3; try discriminate; cbn [obind] in H.
  2: { injection H as <-. left. destruct (first_error_inl _ _ _ E3) as (errs & X1 & X2). destruct (RefusalProperties.mysql_scopes_refused_with low root errs X1) as [N1 N2].
       destruct (X2 N1) as (x & Y1 & Y2). exists x. split; [apply N2; exact Y1|exact Y2]. }
  right. exists scopes. split; [now apply first_error_ok|].
  destruct (build ord ordf srt schemas scopes) as [its|m|] eqn:E4; try discriminate; cbn [obind] in H; [|injection H as <-; left; exact (build_says ord HO _ ordf srt schemas scopes m eq_refl E4)].
  right. exists schemas, its. split; [reflexivity|]. split; [exact E4|]. unfold remove_existing in H. remember (uniq seqb (map (fun p => it_table (nth p its (mk_it [] []))) (uniq Nat.eqb (seq 0 (length its))))) as names eqn:EN in H.
  destruct (mysql_get_indexes rows names) as [infos|m|] eqn:E5; try discriminate. cbn [obind] in H. injection H as <-. unfold mysql_get_indexes in E5.
  destruct names as [|n names']; [left; injection E5 as <-; split; [apply names_nil; now symmetry|reflexivity]|]. right. exists (n :: names'). split; [discriminate|].
  destruct (rows (n :: names')) as [rs|m'|]; try discriminate; cbn [obind] in E5; [|injection E5 as ->; reflexivity]. exfalso.
  assert (K : forall rs lt li infos, to_index_info_from lt li infos rs <> Err m).
  { clear. assert (A : forall infos c, append_last infos c <> Err m).
    { induction infos as [|i infos IH]; intros c; [discriminate|]. cbn [append_last]. destruct infos; [discriminate|]. specialize (IH c). destruct (append_last (i0 :: infos) c); cbn [obind]; congruence. }
    induction rs as [|r rs IH]; intros lt li infos; cbn [to_index_info_from]; [discriminate|].
    destruct (seqb lt (fr_table r) && seqb li (fr_index r))%bool; [|cbn [obind]; apply IH]. specialize (A infos (fr_column r)). destruct (append_last infos (fr_column r)); cbn [obind]; [apply IH|congruence|discriminate]. }
  exact (K rs [] [] [] E5).
Qed.
(** ** PostgreSQL and Hasura *)
Lemma names_ok : forall norm so root m, (forall l, Permutation (so l) l) -> PgCollect.collect_table_names norm so root <> Err m.
Proof. intros norm so root m HO K. pose proof (PgFlowProofs.table_names norm so root HO) as X. rewrite K in X. exact X. Qed.
Lemma scopes_ok : forall norm target root m, PgSpec.distinct root -> PgCollect.collect_scopes norm target root <> Err m.
Proof. intros norm target root m HD K. pose proof (PgWalkProofs.scopes_crash norm target root HD) as X. rewrite K in X. exact X. Qed.
Theorem pg_refusal_words : forall norm fold so ord ordf srt columns indexes stmts msg, is_order ord -> (forall l, Permutation (so l) l) ->
    (forall root, In root stmts -> PgSpec.distinct root) ->
    PgCollect.pg_suggest norm fold so ord ordf srt columns indexes (Ok stmts) = Err msg ->
    (2 <= length stmts /\ msg = of_string "not supporting query having multiple statements") \/
    exists root, stmts = [root] /\
    ((exists m, RefusalPgSpec.pg_name_complaint root m /\ msg = of_string ": " ++ m) \/
    exists tables, PgCollect.collect_table_names norm so root = Ok (inl tables) /\
    (no_such_table columns tables msg \/
     (exists m, RefusalPgSpec.pg_complaint norm (of_string "public") root m /\ msg = of_string ": " ++ m) \/
     exists scopes, PgCollect.collect_scopes norm (of_string "public") root = Ok (inl scopes) /\
     ((exists sc s, In sc scopes /\ scope_in sc s /\ missing s msg) \/
      exists schemas its, collect_table_schemas columns tables = Ok schemas /\ build ord ordf srt schemas scopes = Ok its /\
      ((its = [] /\ msg = of_string "failed to build query to get table schema: empty slice passed to 'in' query") \/
       exists names, names <> [] /\ indexes names = Err msg)))).
Proof.
  intros norm fold so ord ordf srt columns indexes stmts msg HO HP HD H. unfold PgCollect.pg_suggest in H. cbn [obind] in H.
  destruct stmts as [|root [|x rest]]; [discriminate| |left; injection H as <-; split; [cbn; lia|reflexivity]]. right. exists root. split; [reflexivity|].
  specialize (HD root (or_introl eq_refl)).
  destruct (PgCollect.collect_table_names norm so root) as [r|m|] eqn:E0; try discriminate; cbn [obind] in H; [|elim (names_ok norm so root m HP E0)].
  destruct (MysqlCollect.first_error r) as [tables|m|] eqn:E1; try discriminate; cbn [obind] in H.
  2: { injection H as <-. left. destruct (first_error_inl _ _ _ E1) as (errs & -> & X2). destruct (RefusalPgProperties.pg_names_refused_with norm so root errs E0) as [N1 N2].
       destruct (X2 N1) as (x & Y1 & Y2). exists x. split; [apply N2; exact Y1|exact Y2]. }
  right. exists tables. apply first_error_ok in E1 as ->. split; [reflexivity|].
  destruct (collect_table_schemas columns tables) as [schemas|m|] eqn:E2; try discriminate; cbn [obind] in H; [|injection H as <-; left; now apply schemas_say]. right.
  destruct (PgCollect.collect_scopes norm (lit "public") root) as [q|m|] eqn:E3; try discriminate; cbn [obind] in H; [|elim (scopes_ok norm (lit "public") root m HD E3)].
  destruct (MysqlCollect.first_error q) as [scopes|m|] eqn:E3'; try discriminate; cbn [obind] in H.
  2: { injection H as <-. left. destruct (first_error_inl _ _ _ E3') as (errs & -> & X2). destruct (RefusalPgProperties.pg_scopes_refused_with norm (lit "public") root errs E3) as [N1 N2].
       destruct (X2 N1) as (x & Y1 & Y2). exists x. split; [apply N2; exact Y1|exact Y2]. }
  right. exists scopes. apply first_error_ok in E3' as ->. split; [reflexivity|].
  destruct (build ord ordf srt schemas scopes) as [its|m|] eqn:E4; try discriminate; cbn [obind] in H; [|injection H as <-; left; exact (build_says ord HO _ ordf srt schemas scopes m eq_refl E4)].
  right. exists schemas, its. split; [reflexivity|]. split; [exact E4|]. unfold remove_existing in H. remember (uniq seqb (map (fun p => it_table (nth p its (mk_it [] []))) (uniq Nat.eqb (seq 0 (length its))))) as names eqn:EN in H.
  destruct (pg_get_indexes indexes names) as [infos|m|] eqn:E5; try discriminate. cbn [obind] in H. injection H as <-. unfold pg_get_indexes in E5.
  destruct names as [|n names']; [left; injection E5 as <-; split; [apply names_nil; now symmetry|reflexivity]|]. right. exists (n :: names'). split; [discriminate|exact E5].
Qed.
Theorem hasura_refusal_words : forall norm fold so ord ordf srt scan server stmts msg, is_order ord -> (forall l, Permutation (so l) l) ->
    (forall root, In root stmts -> PgSpec.distinct root) ->
    Hasura.hasura_suggest norm fold so ord ordf srt scan server (Ok stmts) = Err msg ->
    (2 <= length stmts /\ msg = of_string "not supporting query having multiple statements") \/
    exists root, stmts = [root] /\
    ((exists m, RefusalPgSpec.pg_name_complaint root m /\ msg = of_string ": " ++ m) \/
    exists tables, PgCollect.collect_table_names norm so root = Ok (inl tables) /\
    (Hasura.get_table_columns server (of_string "public") tables = Err msg \/
     (exists rows t, Hasura.get_table_columns server (of_string "public") tables = Ok rows /\ In t tables /\ (forall c pk, ~ In (t, c, pk) rows) /\
        msg = of_string ": unknown table found. perhaps using VIEW? not supporting: " ++ t) \/
     (exists m, RefusalPgSpec.pg_complaint norm (of_string "public") root m /\ msg = of_string ": " ++ m) \/
     exists scopes, PgCollect.collect_scopes norm (of_string "public") root = Ok (inl scopes) /\
     ((exists sc s, In sc scopes /\ scope_in sc s /\ missing s msg) \/
       exists names, Hasura.get_indexes server scan (of_string "public") names = Err msg))).
Proof.
  intros norm fold so ord ordf srt scan server stmts msg HO HP HD H. unfold Hasura.hasura_suggest in H. cbn [obind] in H.
  destruct stmts as [|root [|x rest]]; [discriminate| |left; injection H as <-; split; [cbn; lia|reflexivity]]. right. exists root. split; [reflexivity|].
  specialize (HD root (or_introl eq_refl)).
  destruct (PgCollect.collect_table_names norm so root) as [r|m|] eqn:E0; try discriminate; cbn [obind] in H; [|elim (names_ok norm so root m HP E0)].
  destruct (MysqlCollect.first_error r) as [tables|m|] eqn:E1; try discriminate; cbn [obind] in H.
  2: { injection H as <-. left. destruct (first_error_inl _ _ _ E1) as (errs & -> & X2). destruct (RefusalPgProperties.pg_names_refused_with norm so root errs E0) as [N1 N2].
       destruct (X2 N1) as (x & Y1 & Y2). exists x. split; [apply N2; exact Y1|exact Y2]. }
  right. exists tables. apply first_error_ok in E1 as ->. split; [reflexivity|].
  destruct (Hasura.hasura_table_schemas server (lit "public") tables) as [schemas|m|] eqn:E2; try discriminate; cbn [obind] in H.
  2: { injection H as <-. unfold Hasura.hasura_table_schemas in E2. change (lit "public") with (of_string "public") in E2.
       destruct (Hasura.get_table_columns server (of_string "public") tables) as [rows|m'|] eqn:EC; try discriminate; cbn [obind] in E2; [|left; injection E2 as ->; reflexivity].
       right. left. rewrite check_spec in E2. destruct (find _ tables) as [t|] eqn:EF; [|discriminate]. injection E2 as <-. apply find_some in EF as [F1 F2].
       exists rows, t. split; [reflexivity|]. split; [exact F1|]. split; [|reflexivity]. intros c pk K.
       assert (K' : In (t, c, pk) (rows_of t rows)) by (apply filter_In; split; [exact K|apply seqb_refl]). destruct (rows_of t rows); [contradiction|discriminate]. }
  right. right.
  destruct (PgCollect.collect_scopes norm (lit "public") root) as [q|m|] eqn:E3; try discriminate; cbn [obind] in H; [|elim (scopes_ok norm (lit "public") root m HD E3)].
  destruct (MysqlCollect.first_error q) as [scopes|m|] eqn:E3'; try discriminate; cbn [obind] in H.
  2: { injection H as <-. left. destruct (first_error_inl _ _ _ E3') as (errs & -> & X2). destruct (RefusalPgProperties.pg_scopes_refused_with norm (lit "public") root errs E3) as [N1 N2].
       destruct (X2 N1) as (x & Y1 & Y2). exists x. split; [apply N2; exact Y1|exact Y2]. }
  right. exists scopes. apply first_error_ok in E3' as ->. split; [reflexivity|].
  destruct (build ord ordf srt schemas scopes) as [its|m|] eqn:E4; try discriminate; cbn [obind] in H; [|injection H as <-; left; exact (build_says ord HO _ ordf srt schemas scopes m eq_refl E4)].
  right. unfold remove_existing in H. set (names := uniq seqb _) in H. exists names.
  destruct (Hasura.get_indexes server scan (lit "public") names) as [infos|m|] eqn:E5; try discriminate. cbn [obind] in H. injection H as <-. reflexivity.
Qed.
Section Examples.
Local Definition ex_columns_ (names : list gostring) : outcome (list (list N * list N * bool)) := Ok [(lit "users", lit "id", true); (lit "users", lit "email", false)].
Local Definition my_run (root : MysqlAst.node) :=
  MysqlCollect.mysql_suggest MysqlProperties.ascii_low ascii_fold (fun l => l) id_ord id_ord isort ex_columns_ (fun _ => Err (lit "gone")) (Ok [root]).
Local Definition my_one (x : MysqlAst.node) (t : string) (wh : MysqlAst.node) := MysqlProperties.sel [MysqlProperties.sf x] (MysqlProperties.tab t "") wh.
(** A table of a named database, a column and a table that the server does not know, a view, a
    statement reading no table, one needing no index, and the server failing at the last request *)
Example mysql_refusal_words_ex :
    my_run MysqlProperties.db_stmt = Err (lit ": not supporting query referencing database explicitly: db.tasks") /\
    my_run (my_one (MysqlProperties.col "" "age") "users" MysqlAst.Nil) = Err (lit ": no column found for age") /\
    my_run (my_one (MysqlProperties.col "t" "id") "users" MysqlAst.Nil) = Err (lit ": no table found: t") /\
    my_run (my_one (MysqlProperties.col "" "id") "seen" MysqlAst.Nil) = Err (lit ": unknown table found. perhaps using VIEW? not supporting: seen") /\
    my_run (MysqlProperties.sel [MysqlProperties.sf MysqlProperties.val] MysqlAst.Nil MysqlAst.Nil)
      = Err (lit "failed to build query to get table schema: empty slice passed to 'in' query") /\
    my_run (my_one MysqlProperties.val "users" MysqlAst.Nil) = Err (lit "failed to build query to get table schema: empty slice passed to 'in' query") /\
    my_run (my_one (MysqlProperties.col "" "email") "users" MysqlAst.Nil) = Err (lit "gone").
Proof. repeat apply conj; vm_compute; reflexivity. Qed.
Local Definition pg_run (stmts : list PgAst.node) :=
  PgCollect.pg_suggest (fun s => s) ascii_fold (fun l => l) id_ord id_ord isort ex_columns_ (fun _ => Err (lit "gone")) (Ok stmts).
Local Definition pg_one (x : PgAst.node) (t : string) := PgProperties.sel 0 [PgProperties.se x] [PgProperties.tab t ""] PgAst.Nil.
Example pg_refusal_words_ex :
    PgSpec.distinct (pg_one (PgProperties.nm_ "" "age") "users") /\
    pg_run [pg_one (PgProperties.nm_ "" "age") "users"] = Err (lit ": no column found for age") /\
    pg_run [pg_one (PgProperties.nm_ "t" "id") "users"] = Err (lit ": no table found: t") /\
    pg_run [pg_one (PgProperties.nm_ "" "id") "seen"] = Err (lit ": unknown table found. perhaps using VIEW? not supporting: seen") /\
    pg_run [pg_one (PgAst.A0 PgAst.DefaultVal) "users"] = Err (lit ": unsupported node found") /\
    pg_run [pg_one PgProperties.val "users"] = Err (lit "failed to build query to get table schema: empty slice passed to 'in' query") /\
    pg_run [pg_one (PgProperties.nm_ "" "email") "users"] = Err (lit "gone") /\
    pg_run [pg_one PgProperties.val "users"; pg_one PgProperties.val "users"] = Err (lit "not supporting query having multiple statements").
Proof. split; [apply (PgProperties.distinct_check 20); [reflexivity|]; vm_compute; PgProperties.nodup|]. repeat apply conj; vm_compute; reflexivity. Qed.
Local Definition ex_server : Hasura.sql_server := fun r => Ok [[]; [lit "users"; lit "id"; lit "t"]; [lit "users"; lit "email"; lit "f"]].
Local Definition hasura_run (stmts : list PgAst.node) :=
  Hasura.hasura_suggest (fun s => s) ascii_fold (fun l => l) id_ord id_ord isort (fun _ => Err (lit "no array")) ex_server (Ok stmts).
Example hasura_refusal_words_ex :
    hasura_run [pg_one (PgProperties.nm_ "" "age") "users"] = Err (lit ": no column found for age") /\
    hasura_run [pg_one (PgProperties.nm_ "" "id") "seen"] = Err (lit ": unknown table found. perhaps using VIEW? not supporting: seen") /\
    hasura_run [pg_one (PgAst.A0 PgAst.DefaultVal) "users"] = Err (lit ": unsupported node found") /\
    (exists m, hasura_run [pg_one (PgProperties.nm_ "" "email") "users"] = Err m).
Proof. repeat apply conj; [..|eexists]; vm_compute; reflexivity. Qed.
End Examples.
Print Assumptions build_says.
Print Assumptions mysql_refusal_words.
Print Assumptions pg_refusal_words.
Print Assumptions hasura_refusal_words.
