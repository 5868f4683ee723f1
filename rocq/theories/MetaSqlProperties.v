(** C91: the requests for metadata. *)
From Coq Require Import String List NArith ZArith Bool Lia Arith.
From Verif Require Import Base Dec IndexText IndexBuild TableFields Existing SqlServer MetaSql MetaSqlProofs.
Import ListNotations.

(** ** C91 *)
(** How many names there are is all the text of a request knows about them; they travel
    as the arguments, the schema first.  Nothing is asked for no tables. *)
Theorem metadata_names_are_arguments : forall t schema tables,
    In t [mysql_column_template; mysql_index_template; pg_column_template; pg_index_template] ->
    (tables = [] -> mysql_request t schema tables = Err (in_message ++ empty_in_message) /\ pg_request t schema tables = Err (in_message ++ empty_in_message)) /\
    (tables <> [] -> exists text text',
       (forall schema' tables', length tables' = length tables -> mysql_request t schema' tables' = Ok (text, schema' :: tables')) /\
       (forall schema' tables', length tables' = length tables -> pg_request t schema' tables' = Ok (text', schema' :: tables'))).
Proof.
  intros t schema tables HT. split; [intros ->; split; reflexivity|]. intros HN.
  assert (HM : two_marks t) by (destruct templates_two_marks as (A & B & C & D); cbn [In] in HT; intuition congruence).
  eexists; eexists. split; intros schema' tables' HL.
  - unfold mysql_request. rewrite (sqlx_in_two t schema' tables' HM) by (intros ->; destruct tables; [congruence|discriminate]).
    f_equal. f_equal. replace (map (fun _ => lit "?") tables') with (map (fun _ : gostring => lit "?") tables); [reflexivity|].
    clear HN. revert tables' HL. induction tables as [|x tables IH]; intros [|y tables'] HL; try discriminate; [reflexivity|]. cbn [map]. f_equal. apply IH. cbn in HL. lia.
  - unfold pg_request, mysql_request. rewrite (sqlx_in_two t schema' tables' HM) by (intros ->; destruct tables; [congruence|discriminate]).
    cbn [obind fst snd]. f_equal. f_equal. replace (map (fun _ => lit "?") tables') with (map (fun _ : gostring => lit "?") tables); [reflexivity|].
    clear HN. revert tables' HL. induction tables as [|x tables IH]; intros [|y tables'] HL; try discriminate; [reflexivity|]. cbn [map]. f_equal. apply IH. cbn in HL. lia.
Qed.
Example metadata_names_are_arguments_ex :
  mysql_request mysql_index_template (lit "db") [lit "a'"; lit "b"] = Ok (lit "
SELECT
	TABLE_NAME,
	INDEX_NAME,
	COLUMN_NAME
FROM
	information_schema.STATISTICS
WHERE
	TABLE_SCHEMA = ? AND
	TABLE_NAME IN (?, ?)
ORDER BY
	TABLE_NAME, INDEX_NAME, SEQ_IN_INDEX
", [lit "db"; lit "a'"; lit "b"]) /\
  exists a b, pg_request pg_index_template (lit "public") [lit "a'"; lit "b"] = Ok (a ++ lit "$1 AND
	t.relname IN ($2, $3)" ++ b, [lit "public"; lit "a'"; lit "b"]).
Proof.
  split; [vm_compute; reflexivity|]. exists (part1 pg_index_template), (tail3 pg_index_template). vm_compute. reflexivity.
Qed.
Print Assumptions metadata_names_are_arguments.

Definition later_args (tables : list gostring) : list expr := map (fun k => EArg (N.of_nat (2 + k))) (seq 0 (length tables)).
Lemma args_from_seq : forall (tables : list gostring) n, args_from (N.of_nat (2 + n)) tables = map (fun k => EArg (N.of_nat (2 + k))) (seq n (length tables)).
Proof.
  induction tables as [|x tables IH]; intros n; [reflexivity|]. cbn [length seq map args_from]. f_equal.
  replace (N.of_nat (2 + n) + 1)%N with (N.of_nat (2 + S n)) by lia. apply IH.
Qed.
Lemma args_from_later : forall tables, args_from 2 tables = later_args tables.
Proof. intros tables. exact (args_from_seq tables 0). Qed.
(** The condition in the text of a PostgreSQL or MySQL request compares with the
    arguments: the schema with the first, the table with the others. *)
Theorem metadata_conditions : forall schema tables text args, tables <> [] ->
    (mysql_request mysql_column_template schema tables = Ok (text, args) ->
       exists q, parse_sql text = Some q /\
         q_where q = EAnd (EEq (EBare (lit "table_schema")) (EArg 1)) (EIn (EBare (lit "table_name")) (later_args tables))) /\
    (mysql_request mysql_index_template schema tables = Ok (text, args) ->
       exists q, parse_sql text = Some q /\
         q_where q = EAnd (EEq (EBare (lit "table_schema")) (EArg 1)) (EIn (EBare (lit "table_name")) (later_args tables))) /\
    (pg_request pg_column_template schema tables = Ok (text, args) ->
       exists q, parse_sql text = Some q /\
         q_where q = EAnd (EEq (e_ "pg_namespace" "nspname") (EArg 1)) (EAnd (EIn (e_ "pg_class" "relname") (later_args tables))
           (EAnd (EEq (e_ "pg_class" "relkind") (EText (lit "r"))) (EGe (e_ "pg_attribute" "attnum") (EInt 0))))) /\
    (pg_request pg_index_template schema tables = Ok (text, args) ->
       exists q, parse_sql text = Some q /\
         q_where q = EAnd (EEq (e_ "pg_namespace" "nspname") (EArg 1)) (EIn (e_ "t" "relname") (later_args tables))).
Proof.
  intros schema tables text args HN. rewrite <- args_from_later. destruct templates_two_marks as (A & B & C & D).
  split; [|split; [|split]]; intros H.
  - pose proof (f_equal (fun o => match o with Ok (x, _) => x | _ => [] end) H) as HE. cbv beta iota in HE. rewrite <- HE. clear H HE.
    unfold mysql_request. rewrite (sqlx_in_two _ _ _ A HN). cbv beta iota.
    eexists. split; [apply (question_text mysql_column_template my_column_query tables); [cbn [In]; tauto|apply parse_my_column|exact HN]|reflexivity].
  - pose proof (f_equal (fun o => match o with Ok (x, _) => x | _ => [] end) H) as HE. cbv beta iota in HE. rewrite <- HE. clear H HE.
    unfold mysql_request. rewrite (sqlx_in_two _ _ _ B HN). cbv beta iota.
    eexists. split; [apply (question_text mysql_index_template my_index_query tables); [cbn [In]; tauto|apply parse_my_index|exact HN]|reflexivity].
  - pose proof (f_equal (fun o => match o with Ok (x, _) => x | _ => [] end) H) as HE. cbv beta iota in HE. rewrite <- HE. clear H HE.
    unfold pg_request, mysql_request. rewrite (sqlx_in_two _ _ _ C HN). cbv beta iota delta [obind fst snd].
    eexists. split; [apply (numbered_text pg_column_template pg_column_query tables); [cbn [In]; tauto|apply parse_pg_column|exact C|exact HN]|reflexivity].
  - pose proof (f_equal (fun o => match o with Ok (x, _) => x | _ => [] end) H) as HE. cbv beta iota in HE. rewrite <- HE. clear H HE.
    unfold pg_request, mysql_request. rewrite (sqlx_in_two _ _ _ D HN). cbv beta iota delta [obind fst snd].
    eexists. split; [apply (numbered_text pg_index_template (pg_index_query ((e_ "i" "relname", lit "index_name") :: index_items)) tables); [cbn [In]; tauto|apply parse_pg_index|exact D|exact HN]|reflexivity].
Qed.
Example metadata_conditions_ex : exists text args, pg_request pg_column_template (lit "public") [lit "users"] = Ok (text, args).
Proof. eexists; eexists; vm_compute; reflexivity. Qed.
Print Assumptions metadata_conditions.
