(** What the log of a suggest command has to say. *)
From Coq Require Import String List NArith ZArith QArith Bool Lia Arith Permutation Sorted.
From Verif Require Import Base Dec IndexText IndexTextSpec Examiner HandOver Program PathsSpec Diary.
Import ListNotations.
Local Open Scope nat_scope.

(** ** The steps of an examination and how each is announced *)
Inductive step := Ask | Make (name : gostring) (it : index_target) | Unmake (name : gostring) (it : index_target).
Definition announcement (s : step) : gostring :=
  match s with
  | Ask => of_string "Executing query..."
  | Make n _ => of_string "Creating index(" ++ n ++ of_string ")..."
  | Unmake n _ => of_string "Dropping index(" ++ n ++ of_string ")..."
  end.
(** An examination: the query, then for each index its creation, the query and its removal; it
    may end behind a creation *)
Inductive trials : list step -> Prop :=
| no_trial : trials []
| refused_trial : forall n it, trials [Make n it]
| one_trial : forall n it ss, trials ss -> trials (Make n it :: Ask :: Unmake n it :: ss).
Definition in_turn (ss : list step) : Prop := ss = [] \/ exists ts, ss = Ask :: ts /\ trials ts.
Definition act_of (create drop : gostring -> index_target -> act) (query : act) (s : step) : act :=
  match s with Ask => query | Make n it => create n it | Unmake n it => drop n it end.
Definition at_level (l : level) (d : list (entry act)) : list gostring :=
  flat_map (fun p => match fst p, l with Debug, Debug | Info, Info | Error, Error => [snd p] | _, _ => [] end) (said d).
(** The lines a user sees without --verbose, and where they stand.  [ending] is the line about the report. *)
Definition told_in_step (step_act : step -> act) (ending : list gostring) (d : list (entry act)) : Prop :=
  (exists before steps after,
     acts d = before ++ map step_act steps ++ after /\ in_turn steps /\
     (forall a s, In a (before ++ after) -> a <> step_act s) /\
     at_level Info d = match steps with [] => [] | _ => [of_string "Start examination..."] end ++ map announcement steps ++ ending) /\
  (forall p a q s, d = p ++ Did a :: q -> a = step_act s -> exists p' s', a = step_act s' /\ p = p' ++ [Said Info (announcement s')]) /\
  at_level Error d = [].

(** ** The report and the log *)
Definition report_data (b : build_option) : option suggest_data :=
  match b with BoMysql d | BoPostgres d | BoHasura d => Some d | _ => None end.
Definition report_targets (b : build_option) : list index_target :=
  match report_data b with Some d => match sd_targets d with Some l => l | None => [] end | None => [] end.
Definition report_result (b : build_option) : option examination_result :=
  match report_data b with Some d => sd_result d | None => None end.
(** The suggestions, numbered from zero *)
Definition target_text (i : nat) (it : index_target) : gostring :=
  9%N :: dec_of_N (N.of_nat i) ++ of_string ".table: " ++ it_table it ++ of_string ", columns: [" ++ join (of_string ", ") (it_cols it) ++ of_string "])".
Definition lists_targets (its : list index_target) (lines : list gostring) : Prop :=
  (its = [] /\ lines = [of_string "No possibly efficient index found. Perhaps already indexed?"]) \/
  (its <> [] /\ length lines = S (length its) /\ nth_error lines 0 = Some (of_string "Found possibly efficient index combinations:") /\
   forall i it, nth_error its i = Some it -> nth_error lines (S i) = Some (target_text i it)).
(** A whole number *)
Definition whole (z : Z) (s : gostring) : Prop :=
  (exists n, z = Z.of_N n /\ s = dec_of_N n) \/ (exists n, (0 < n)%N /\ z = (- Z.of_N n)%Z /\ s = of_string "-" ++ dec_of_N n).
(** How much less [t] is than [o], in percent to one place, with no error from computing:
    the nearest number with one place, or either of two that are as near *)
Definition percent (t o : Z) (s : gostring) : Prop :=
  (o = 0%Z /\ t = 0%Z /\ s = of_string "NaN") \/
  (o = 0%Z /\ (0 < t)%Z /\ s = of_string "-Inf") \/
  ((0 < o)%Z /\ exists n, (n < 10)%N /\ exists m, s = (if Z.ltb o t then of_string "-" else []) ++ dec_of_N m ++ of_string "." ++ dec_of_N n /\
     (2 * Z.abs (Z.of_N (10 * m + n) * o - 1000 * Z.abs (o - t)) <= o)%Z).
Definition tidy (name s : gostring) : Prop :=
  Forall2 (fun c c' => (word_char c /\ c' = c) \/ (~ word_char c /\ c' = 95%N)) name s.
Definition time_told (orig : Z) (r : index_result) (line : gostring) : Prop :=
  exists ms p cols, whole (ir_millis r) ms /\ ((0 <= orig)%Z -> (0 <= ir_millis r)%Z -> (ir_millis r + orig <= 1000000000000)%Z -> percent (ir_millis r) orig p) /\ Forall2 tidy (it_cols (ir_target r)) cols /\
    line = of_string "Time: " ++ ms ++ of_string "ms (" ++ p ++ of_string "% reduced), Columns(" ++ join (of_string ",") cols ++ of_string ")".
(** The results under their tables, the fastest first *)
Inductive tables_told (orig : Z) : list (gostring * list index_result) -> list gostring -> Prop :=
| tt_end : tables_told orig [] []
| tt_table : forall t rs lines gs rest, Forall2 (time_told orig) rs lines -> tables_told orig gs rest ->
    tables_told orig ((t, rs) :: gs) ((of_string "==Table: " ++ t) :: lines ++ rest).
Definition lists_results (er : examination_result) (lines : list gostring) : Prop :=
  exists o groups rest, whole (er_original er) o /\
    lines = of_string "====RESULT====" :: (of_string "Original Time: " ++ o ++ of_string "ms") :: rest /\
    NoDup (map fst groups) /\ Permutation (concat (map snd groups)) (er_results er) /\
    (forall t rs, In (t, rs) groups -> rs <> [] /\ (forall r, In r rs -> it_table (ir_target r) = t) /\
       StronglySorted (fun a b => (ir_millis a <= ir_millis b)%Z) rs) /\
    tables_told (er_original er) groups rest.
(** [d] has the lines [ls], one behind the other *)
Definition has_lines (l : level) (ls : list gostring) (before after : list (entry act)) (d : list (entry act)) : Prop :=
  d = before ++ map (Said l) ls ++ after.
(** The report as the log shows it: the suggestions in front of the examination, the results behind it *)
Definition announced (step_act : step -> act) (steps : list step) : list (entry act) :=
  match steps with [] => [] | _ => [Said Info (of_string "Start examination...")] end ++
  flat_map (fun s => [Said Info (announcement s); Did (step_act s)]) steps.
Definition report_logged (step_act : step -> act) (p : gostring) (b : build_option) (d : list (entry act)) : Prop :=
  exists before targets between steps results after,
    d = before ++ map (Said Debug) targets ++ between ++ announced step_act steps ++ map (Said Debug) results ++ after /\
    In (Did (AWrite p b)) after /\
    (forall a s, In (Did a) (before ++ between ++ after) -> a <> step_act s) /\
    lists_targets (report_targets b) targets /\
    match report_result b with None => steps = [] /\ results = [] | Some er => steps <> [] /\ lists_results er results end.
(** The line about the report: only behind a report that was written *)
Definition report_told (wd : option gostring) (output : gostring) (r : outcome unit) (lines : list gostring) : Prop :=
  match r, output, wd with
  | Ok _, _ :: _, Some w => exists p, lines = [of_string "Result html is at: " ++ p] /\
      forall dir file cwd, absolute w -> ~ absolute output -> names [] w dir -> names dir output file -> names cwd p file
  | _, _, _ => lines = []
  end.
(** What a user sees of a run without --verbose: [message] is what is printed of an error *)
Definition seen (step_act : step -> act) (mock : bool) (wd : option gostring) (output : gostring) (message : gostring -> gostring)
    (r : outcome unit) (d : list (entry act)) (e : ending) : Prop :=
  exists before steps after report error,
    acts d = before ++ map step_act steps ++ after /\ in_turn steps /\
    (forall a s, In a (before ++ after) -> a <> step_act s) /\
    screen false d = (if mock then [of_string "NOTE: Using mock"] else []) ++
      match steps with [] => [] | _ => [of_string "Start examination..."] end ++ map announcement steps ++ report ++ error /\
    report_told wd output r report /\
    match r with
    | Ok _ => error = [] /\ e = Exit 0
    | Err m => error = [message m] /\ e = Exit 1
    | Panic => error = [] /\ e = Crash
    end.
