(** What a command has to say and to do once the server or the file system fails it. *)
From Coq Require Import List NArith ZArith String.
From Verif Require Import Base Dec IndexText SqlServer Json HandOver Program HasuraProgram.
Import ListNotations.

(** The acts after the first failed one: none, or the index of the failed run is dropped *)
Definition nothing_but_drop (create drop : gostring -> index_target -> act) (query : act) (a : list act) (x : act) (b : list act) : Prop :=
  b = [] \/ exists a' n it, a = a' ++ [create n it] /\ x = query /\ b = [drop n it].

(** The words of the error, by what failed.  [create] and [drop] are the statements sent, [query] the query,
    [kinds] how the SELECTs begin and what is said of them. *)
Section Words.
  Context (create drop : gostring -> index_target -> gostring) (query : gostring) (kinds : list (gostring * gostring)).
  Definition exec_words (s m e : gostring) : Prop :=
    ((s = query \/ exists n it, s = create n it) /\ e = of_string "failed to execute query: " ++ s ++ of_string ": " ++ m) \/
    ((exists n it, s = drop n it) /\ e = of_string "failed to drop index: failed to execute query: " ++ s ++ of_string ": " ++ m).
  Definition sql_words (x : act) (m e : gostring) : Prop :=
    match x with
    | AOpen _ => e = of_string "failed to connect: " ++ m
    | ASelect (q, _) => exists first words t, In (first, words) kinds /\ q = first ++ t /\ e = words ++ m
    | AExec s => exec_words s m e
    | AWrite _ _ => e = m
    | _ => False
    end.
End Words.
Definition mysql_kinds : list (gostring * gostring) :=
  [(of_string "EXPLAIN ", of_string "failed to select: ");
   (of_string "
SELECT
	COLUMN_NAME,
	COLUMN_KEY,", of_string "failed to execute query to get table schema: ");
   (of_string "
SELECT
	TABLE_NAME,
	INDEX_NAME,", of_string "failed to execute query to get indexes: ")].
Definition pg_kinds : list (gostring * gostring) :=
  [(of_string "EXPLAIN ", of_string "failed to select: ");
   (of_string "
SELECT
	pg_class.relname AS table_name,", of_string "failed to execute query to get table column: ");
   (of_string "
SELECT 
	i.relname AS index_name,", of_string "failed to execute query to get indexes: ")].

Section Error.
  Context {W : Type} (sv : world W) (hv : hworld W).
  Definition sql_error (w : W) (x : act) : option gostring :=
    match x with
    | AOpen c => snd (on_open sv w c)
    | ASelect rq => match snd (on_select sv w rq) with Err m => Some m | _ => None end
    | AExec s => match snd (on_exec sv w s) with inr m => Some m | inl _ => None end
    | AWrite p b => snd (on_write sv w p b)
    | _ => None
    end.
  (** no answer, or one of another status than 200 *)
  Definition http_error (w : W) (x : act) : option gostring :=
    match x with
    | APost p j =>
        match snd (h_post hv w p j) with
        | NoAnswer m => Some (of_string "failed to execute http request to hasura: " ++ m)
        | Answer 200 _ => None
        | Answer n text => Some (of_string "Request to Hasura failed (Status=" ++ dec_of_N n ++ of_string "): " ++ text)
        end
    | AWrite p b => snd (h_write hv w p b)
    | _ => None
    end.
End Error.
Definition http_words (drop : gostring -> index_target -> act) (x : act) (m e : gostring) : Prop :=
  match x with
  | APost p j =>
      (p = of_string "/v1/graphql" /\ e = of_string "query for GraphQL failed: " ++ m) \/
      ((exists n it, x = drop n it) /\ e = of_string "failed to drop index: " ++ m) \/
      (p <> of_string "/v1/graphql" /\ ~ (exists n it, x = drop n it) /\ e = m)
  | AWrite _ _ => e = m
  | _ => False
  end.
