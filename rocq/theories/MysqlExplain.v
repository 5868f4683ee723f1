(** Model of database/mysql/mmodel/explain_analyze_result_line.go and
    database/mysql/mservice/explainer.go. *)
From Coq Require Import String List NArith ZArith QArith Bool Lia Arith.
From Verif Require Import Base Dec Regex ExplainTree.
Import ListNotations.
Local Open Scope nat_scope.

(** explain_analyze_result_line.go:16-28 *)
Record result_line := {
  rl_text : gostring;
  rl_table : gostring;
  rl_init_cost : null_float;
  rl_cost : null_float;
  rl_rows : null_int;
  rl_time_first : null_float;
  rl_time_avg : null_float;
  rl_returned : null_int;
  rl_loops : null_int }.
(** [&ExplainAnalyzeResultLine{}] *)
(** explainer.go:36 *)
Definition empty_line : result_line := Build_result_line [] [] None None None None None None None.

(** explain_analyze_result_line.go:30-36 *)
Definition indent_reg : re := Cat Bot (Star true space).
(** explain_analyze_result_line.go:31 *)
Definition on_reg : re := cats [str (lit " on "); Grp 1 (plus true word)].
(** explain_analyze_result_line.go:32 *)
Definition filter_reg : re := cats [str (lit " Filter: ("); Grp 1 (plus true word); ch 46].
(** explain_analyze_result_line.go:33 *)
Definition sort_reg : re := cats [str (lit " Sort: "); Grp 1 (plus true word); ch 46].
(** explain_analyze_result_line.go:34 *)
Definition aggregate_reg : re :=
  cats [str (lit " Aggregate: "); plus true word; ch 40; Grp 1 (plus true word); ch 46].
(** explain_analyze_result_line.go:35 *)
Definition estimation_reg : re :=
  cats [str (lit "(cost="); Grp 1 (plus false num);
        opt (Grp 2 (Cat (str (lit "..")) (Grp 3 (plus false num))));
        opt (Grp 4 (Cat (str (lit " rows=")) (Grp 5 (plus true digit))));
        ch 41].
(** explain_analyze_result_line.go:36 *)
Definition actual_reg : re :=
  cats [str (lit "(actual time="); Grp 1 (plus false num); str (lit "..");
        Grp 2 (plus false num); str (lit " rows="); Grp 3 (plus true digit);
        str (lit " loops="); Grp 4 (plus true digit); ch 41].

(** explain_analyze_result_line.go:108-130 *)
Definition extract_table (line : gostring) : gostring :=
  match find on_reg line with
  | Some m => capd (m_caps m) 1
  | None =>
    match find filter_reg line with
    | Some m => capd (m_caps m) 1
    | None =>
      match find sort_reg line with
      | Some m => capd (m_caps m) 1
      | None =>
        match find aggregate_reg line with
        | Some m => capd (m_caps m) 1
        | None => []
        end
      end
    end
  end.

(** explain_analyze_result_line.go:45-73: initial cost, cost, rows *)
Definition parse_estimation (line : gostring) : outcome (null_float * null_float * null_int) :=
  match find estimation_reg line with
  | None => Ok (None, None, None)
  | Some m =>
      let em := capd (m_caps m) in
      do costs <- match em 2 with
                  | [] => do cost <- float_of (em 1) line; Ok (None, Some cost)
                  | _ => do init <- float_of (em 1) line;
                         do cost <- float_of (em 3) line;
                         Ok (Some init, Some cost)
                  end;
      do rows <- match em 4 with
                 | [] => Ok None
                 | _ => do n <- int_of (em 5) (em 4) line; Ok (Some n)
                 end;
      Ok (fst costs, snd costs, rows)
  end.

(** explain_analyze_result_line.go:76-101: first row, average, rows, loops *)
Definition parse_actual (line : gostring)
  : outcome (null_float * null_float * null_int * null_int) :=
  match find actual_reg line with
  | None => Ok (None, None, None, None)
  | Some m =>
      let am := capd (m_caps m) in
      do first <- float_of (am 1) line;
      do avg <- float_of (am 2) line;
      do rows <- int_of (am 3) (am 3) line;
      do loops <- int_of (am 4) (am 4) line;
      Ok (Some first, Some avg, Some rows, Some loops)
  end.

(** explain_analyze_result_line.go:103-104; [FindString] is the matched text, "" if none *)
Definition nest_of (line : gostring) : nat :=
  match find indent_reg line with
  | Some m => byte_len (m_text m) / 4
  | None => 0
  end.

(** explain_analyze_result_line.go:38-106 *)
Definition parse_line (line : gostring) : outcome (nat * result_line) :=
  do est <- parse_estimation line;
  do act <- parse_actual line;
  let '(init, cost, rows) := est in
  let '(first, avg, returned, loops) := act in
  Ok (nest_of line,
      {| rl_text := line; rl_table := extract_table line;
         rl_init_cost := init; rl_cost := cost; rl_rows := rows;
         rl_time_first := first; rl_time_avg := avg;
         rl_returned := returned; rl_loops := loops |}).

(** explain_analyze_result_line.go:132-141.  Simplification: exact arithmetic
    instead of doubles. *)
Definition total_time (l : result_line) : Q :=
  if (Qeq_bool (float_or_zero (rl_time_avg l)) 0 && Z.ltb 1000 (int_or_zero (rl_loops l)))%bool
  then ((1 # 10000) * inject_Z (int_or_zero (rl_loops l)))%Q
  else (float_or_zero (rl_time_avg l) * inject_Z (int_or_zero (rl_loops l)))%Q.

(** explain_analyze_result_line.go:154-155 *)
Definition title_reg : re :=
  cats [str (lit "->"); plus true space; Grp 1 (plus true dot); plus true space; ch 40].
(** explain_analyze_result_line.go:155 *)
Definition title_word_reg : re := plus true word.

(** explain_analyze_result_line.go:157-182 *)
Definition title (l : result_line) : gostring :=
  match find title_reg (rl_text l) with
  | None => match find title_word_reg (rl_text l) with
            | None => []
            | Some m => m_text m
            end
  | Some m =>
      let txt := capd (m_caps m) 1 in
      match before (lit ":") txt with
      | Some t => trim_space t
      | None =>
        match before (lit " join ") txt with
        | Some t => trim_space t ++ lit " join"
        | None =>
          match before (lit " on ") txt with
          | Some t => trim_space t
          | None => match before (lit " ") txt with Some t => t | None => txt end
          end
        end
      end
  end.

(** ** mservice/explainer.go *)

(** explainer.go:57-59 *)
Fixpoint pop_deeper (nest : nat) (stack : list nat) : list nat :=
  match stack with
  | [] => []
  | _ :: stack' => if Nat.ltb nest (length stack - 1) then pop_deeper nest stack' else stack
  end.

(** explainer.go:39-67.  [stack] has the top first; [Top()] of the empty stack
    is nil and appending to its children panics. *)
Fixpoint build_loop (lines : list gostring) (h : heap result_line) (stack : list nat)
  : outcome (heap result_line) :=
  match lines with
  | [] => Ok h
  | [] :: lines' => build_loop lines' h stack
  | line :: lines' =>
      do p <- parse_line line;
      let '(nest, l) := p in
      let '(h1, n) := alloc h l in
      let attach stack :=
        match stack with
        | [] => Panic
        | cur :: _ => build_loop lines' (add_child h1 cur n) (n :: stack)
        end in
      if Nat.eqb (length stack - 1) nest then attach stack
      else if Nat.ltb nest (length stack - 1) then attach (pop_deeper nest (tl stack))
      else Err (lit "invalid result from EXPLAIN ANALYZE")
  end.

(** explainer.go:33-70 *)
Definition build_explain (text : gostring) : outcome (tree result_line) :=
  let '(h, root) := alloc [] empty_line in
  do h' <- build_loop (split nl text) h [root];
  tree_at h' root.
