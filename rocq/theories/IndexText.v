(** Model of database/dmodel/index_target.go and index_column.go. *)
From Coq Require Import String List NArith Bool Lia Arith.
From Verif Require Import Base Regex.
Import ListNotations.

(** index_target.go:13-16 (IndexTarget) with index_column.go:9-11 (IndexColumn,
    a struct with the single field Name; modelled by that name). *)
Record index_target := mk_it { it_table : gostring; it_cols : list gostring }.

(** index_target.go:18   (.+?):((.+?(\+)?)+)  *)
Definition index_target_reg : re :=
  Cat (Grp 1 (plus false dot))
  (Cat (ch 58%N)
       (Grp 2 (plus true (Grp 3 (Cat (plus false dot) (opt (Grp 4 (ch 43%N)))))))).

(** index_target.go:19   \A\w+\z  *)
Definition word_only_reg : re := Cat Bot (Cat (plus true word) Eot).

(** index_column.go:25   \W  *)
Definition non_word_reg : re := Chr (fun c => negb (is_word c)).

(** index_column.go:13-19 NewIndexColumn *)
Definition new_index_column (name : gostring) : outcome gostring :=
  if match_string word_only_reg name then Ok name
  else Err (lit "Including non word character. " ++ name).

(** index_target.go:56-63, the loop over the split columns *)
Fixpoint new_index_columns (cols : list gostring) : outcome (list gostring) :=
  match cols with
  | [] => Ok []
  | c :: cs =>
      do ic <- new_index_column c;
      do rest <- new_index_columns cs;
      Ok (ic :: rest)
  end.

(** index_target.go:43-65 NewIndexTargetFromText *)
Definition new_index_target_from_text (text : gostring) : outcome index_target :=
  match find index_target_reg text with
  | None => Err (lit "Not appropriate text for index: " ++ text)
  | Some m =>
      let tname := capd (m_caps m) 1 in
      if match_string word_only_reg tname then
        do cols <- new_index_columns (split 43%N (capd (m_caps m) 2));
        Ok (mk_it tname cols)
      else Err (lit "Including non word character. " ++ tname)
  end.

(** index_target.go:30-41 NewIndexTargetsFromTexts *)
Fixpoint new_index_targets_from_texts (texts : list gostring) : outcome (list index_target) :=
  match texts with
  | [] => Ok []
  | t :: ts =>
      do it <- new_index_target_from_text t;
      do its <- new_index_targets_from_texts ts;
      Ok (it :: its)
  end.

(** index_column.go:27-29 SafeName *)
Definition safe_name (name : gostring) : gostring := replace_all non_word_reg (lit "_") name.

(** index_target.go:104-116 IsSafe *)
Definition is_safe (it : index_target) : bool :=
  (match_string word_only_reg (it_table it)
   && forallb (fun c => seqb c (safe_name c)) (it_cols it))%bool.

(** index_column.go:31-33 and index_target.go:87-102 Equals *)
Fixpoint cols_equal (a b : list gostring) : bool :=
  match a, b with
  | [], [] => true
  | x :: a', y :: b' => (seqb x y && cols_equal a' b')%bool
  | _, _ => false
  end.
(** index_target.go:87-102 *)
Definition it_equals (a b : index_target) : bool :=
  (seqb (it_table a) (it_table b) && cols_equal (it_cols a) (it_cols b))%bool.

(** index_target.go:78-85 CombinationString *)
Definition combination_string (it : index_target) : gostring :=
  lit "table: " ++ it_table it ++ lit ", columns: [" ++ join (lit ", ") (it_cols it) ++ lit "])".

(** client/src/models/IndexTarget.ts:28-30 toGrColumnOption and the text between
    the double quotes of IndexTarget.ts:14-16 toGrIndexOption *)
Definition to_gr_index_option (it : index_target) : gostring :=
  it_table it ++ lit ":" ++ join (lit "+") (it_cols it).

(** ** strings.EqualFold and HasSameIdxColumns.
    [fold] maps a code point to a representative of its simple-folding orbit;
    the theorems hold for any such map. *)
Section Fold.
  Context (fold : rune -> rune).
  (** Go's strings package; no lines in /repo *)
  Fixpoint equal_fold (a b : gostring) : bool :=
    match a, b with
    | [], [] => true
    | x :: a', y :: b' => (N.eqb (fold x) (fold y) && equal_fold a' b')%bool
    | _, _ => false
    end.
  (** index_target.go:118-130 HasSameIdxColumns (receiver [it], argument [info]) *)
  Fixpoint same_cols (it_cs info_cs : list gostring) : bool :=
    match it_cs, info_cs with
    | [], [] => true
    | x :: a', y :: b' => (equal_fold x y && same_cols a' b')%bool
    | _, _ => false
    end.
  (** index_target.go:118-130 *)
  Definition has_same_idx_columns (it info : index_target) : bool :=
    if Nat.eqb (length (it_cols info)) (length (it_cols it))
    then same_cols (it_cols it) (it_cols info) else false.
End Fold.

(** ASCII part of simple folding, plus the two code points outside ASCII that
    fold into it (U+212A KELVIN SIGN, U+017F LONG S). *)
Definition ascii_fold (c : rune) : rune :=
  (if is_upper c then c + 32 else if N.eqb c 8490 then 107 else if N.eqb c 383 then 115 else c)%N.
