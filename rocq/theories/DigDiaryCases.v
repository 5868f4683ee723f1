(** C130, C131: runs that meet the hypotheses. *)
From Coq Require Import String List NArith ZArith QArith Bool Lia Arith.
From Verif Require Import Base Dec ExplainTree Lib Otel Pi HandOver Paths DigProgram Diary DiarySpec DigDiary DigDiarySpec DigDiaryProperties.
From Verif Require Import OtelProperties DigJaegerStoreProperties.
From Verif Require DigPiProperties.
Import ListNotations.
Local Open Scope nat_scope.

(** Half past and full hours, by their number *)
Definition ex_fmt (t : Z) : gostring := int_text (t / 1800000000000).
Definition ex_told (fl : jaeger_flags) (now : Z) : list (entry exchange) * nat * outcome unit :=
  jaeger_told ex_server (Some (lit "/home/u")) (fun _ _ l => l) ssort (fun l => l) (fun _ l => l) (fun _ l => l) tsort ex_parse ex_fmt ex_fmt ex_env now fl 0.
Definition ex_words (d : list (entry exchange)) : list (option (level * gostring)) := map (fun e => match e with Said l t => Some (l, t) | Did _ => None end) d.
Definition ex_trace : gostring := lit "[07] ""root"" at web".
Definition ex_orphan : gostring := lit "[07] ""orphan"" at web".
(** One hour: two requests, the trace found *)
Example jaeger_diary_ex : let '(d, w, r) := ex_told ex_flags (3600 * second_ns) in
  ex_words d = [None; Some (Info, lit "Dig traces from 0 to 2 taking more than 1000 millis)"); Some (Info, lit "Getting data for 0"); None; Some (Info, lit "Getting data for 1"); None;
    Some (Debug, lit "found traces: ----start"); Some (Debug, ex_trace); Some (Debug, ex_trace); Some (Debug, ex_orphan); Some (Debug, ex_orphan); Some (Debug, lit "found traces: ----end "); None;
    Some (Info, lit "Result html is at: /home/u/o.html"); None] /\ length (finds_of d) = 2 /\ length (reports_of d) = 1 /\ r = Ok tt.
Proof. vm_compute. repeat apply conj; reflexivity. Qed.
Definition ex_pi_fmt (t : gtime) : gostring := int_text (t_ns t / 1800000000000).
Definition ex_pi_told (output : gostring) : list (entry exchange) * nat * outcome unit :=
  pi_told (DigPiProperties.ex_aws [(Some (lit "a"), Some (lit "db-a"))]) (Some (lit "/home/u")) Qplus DigPiProperties.qlt (Qeq_bool 0) DigPiProperties.ex_start ex_pi_fmt
    (DigPiProperties.ex_at 604800000000000) [] output 0.
(** Fourteen half days, each told once and asked about twice *)
Example pi_diary_ex : let '(d, w, r) := ex_pi_told (lit "o.html") in
  firstn 7 (ex_words d) = [None; Some (Info, lit "Getting data for 0"); None; None; Some (Info, lit "Getting data for 24"); None; None] /\
  length (metrics_of d) = 28 /\ length (lines_at Info d) = 15 /\ last (lines_at Info d) [] = lit "Result html is at: /home/u/o.html" /\ r = Ok tt.
Proof. vm_compute. repeat apply conj; reflexivity. Qed.
(** A refused file is not told *)
Example pi_refused_ex : let '(d, w, r) := ex_pi_told [] in length (lines_at Info d) = 14 /\ exists m, r = Err m.
Proof. vm_compute. split; [reflexivity|]. eexists. reflexivity. Qed.
Example stream_ex : find_traces None [Chunk 1; Chunk 2; End; Chunk 3] = Some (Ok [1; 2]) /\
  find_traces None [Chunk 1; Broken (lit "reset")] = Some (Err (lit "failed to receive result to find traces: reset")) /\
  find_traces (C := nat) (Some (lit "down")) [] = Some (Err (lit "failed to find traces: down")) /\ find_traces None [Chunk 1] = None.
Proof. repeat apply conj; reflexivity. Qed.

Print Assumptions jaeger_diary.
Print Assumptions pi_diary.
Print Assumptions stream_whole.
