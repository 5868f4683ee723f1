(** What a command leaves on the disk. *)
From Coq Require Import String List NArith ZArith QArith Bool.
From Verif Require Import Base Json JsonSpec JsonProofs HandOver HandOverSpec Program DigProgram HtmlFile HtmlFileSpec.
From Verif Require HasuraProgram.
Import ListNotations.
Local Open Scope nat_scope.

(** What the world makes of an act, and what it answers to a report *)
Definition sql_step {W} (sv : world W) (w : W) (a : act) : W * option gostring :=
  match a with
  | AOpen c => (fst (on_open sv w c), None)
  | ASelect rq => (fst (on_select sv w rq), None)
  | AExec s => (fst (on_exec sv w s), None)
  | APost _ _ => (w, None)
  | AWrite p b => on_write sv w p b
  | AClose => (on_close sv w, None)
  end.
Definition hasura_step {W} (hv : HasuraProgram.hworld W) (w : W) (a : act) : W * option gostring :=
  match a with
  | APost path body => (fst (fst (HasuraProgram.h_post hv w path body)), None)
  | AWrite p b => HasuraProgram.h_write hv w p b
  | _ => (w, None)
  end.
(** The state that the acts lead to *)
Definition reached {W} (stp : W -> act -> W * option gostring) (tr : list act) (w : W) : W :=
  fold_left (fun w a => fst (stp w a)) tr w.

Section Disk.
  Context {W : Type} (num_text : Q -> gostring) (num_value : gostring -> option Q) (format : gostring -> outcome gostring)
    (h : host) (disk_of : W -> disk).
  (** Only reports change the disk, in the way of CreateHtml. *)
  Definition saves (stp : W -> act -> W * option gostring) : Prop :=
    forall w a, match a with
                | AWrite p b => create_html num_text h (bundle_of b) p (gr_map b) (disk_of w) = (disk_of (fst (stp w a)), snd (stp w a))
                | _ => disk_of (fst (stp w a)) = disk_of w
                end.
  Definition dig_saves (sv : services W) : Prop :=
    forall w a, match a as a0 return W * reply a0 -> Prop with
                | GCreate p b => fun x => create_html num_text h (bundle_of b) p (gr_map b) (disk_of w) = (disk_of (fst x), snd x)
                | _ => fun x => disk_of (fst x) = disk_of w
                end (sv w a).
  (** A report that can be read: its numbers are numbers, the page knows its data, and the
      bundles stay inside their elements. *)
  Definition readable_report (b : build_option) : Prop :=
    numbers (number_fine num_text num_value) (gr_map b) /\ fit format b /\ asset_fits h b.
  (** Behind a command that was to write to [output] the reports [b] for which [written b]:
      at most the file at [output] has changed.  After success it is the whole report.
      After a failure it is what it was before, or a beginning of a report, and then the
      error says that writing failed. *)
  Definition left_on_disk (written : build_option -> Prop) (output : gostring) (d d' : disk) (r : outcome unit) : Prop :=
    (forall q, q <> output -> d' q = d q) /\
    match r with
    | Ok tt => (exists b text, written b /\ d' output = Some text /\ is_report num_value format h b text)
    | _ => d' output = d output \/
           exists b part rest m, written b /\ d' output = Some part /\ is_report num_value format h b (part ++ rest) /\
             r = Err (of_string "failed to write template to html: " ++ m)
    end.
End Disk.
