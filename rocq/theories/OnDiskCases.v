(** C134: a MySQL command with a disk. *)
From Coq Require Import String List NArith ZArith QArith Bool Lia Arith.
From Verif Require Import Base IndexText ExplainTree ExplainTreeProofs Examiner Json JsonSpec JsonProofs JsonProperties CommandText HandOver HandOverSpec HandOverProperties
  Program HtmlFile HtmlFileSpec HtmlFileProofs HtmlFileProperties OnDiskSpec OnDiskProperties.
From Verif Require ProgramMyProperties BuildProperties MysqlProperties ProgramProperties Dec.
Import ListNotations.
Local Open Scope nat_scope.

(** The server of [ProgramMyProperties.ex_world] beside a disk with room for one file *)
Definition disk_world (room : nat) : world (nat * disk) :=
  let sv := ProgramMyProperties.ex_world in
  {| on_open := fun w c => ((fst (on_open sv (fst w) c), snd w), snd (on_open sv (fst w) c));
     on_select := fun w rq => ((fst (on_select sv (fst w) rq), snd w), snd (on_select sv (fst w) rq));
     on_exec := fun w s => ((fst (on_exec sv (fst w) s), snd w), snd (on_exec sv (fst w) s));
     on_write := fun w p b => let '(d, e) := create_html ex_text (ex_host room) (bundle_of b) p (gr_map b) (snd w) in ((fst w, d), e);
     on_close := fun w => (on_close sv (fst w), snd w) |}.
Definition disk_run (room : nat) (output : gostring) :=
  mysql_main (disk_world room) ascii_fold (fun l => l) BuildProperties.id_ord BuildProperties.id_ord BuildProperties.isort
    7 (fun _ => 0%N) true [lit "users:email"] ProgramMyProperties.ex_query output MysqlProperties.ascii_low (fun _ => Ok [MysqlProperties.ex_stmt]) ProgramMyProperties.ex_env (0, ex_disk).
Lemma disk_world_saves : forall room, saves ex_text (ex_host room) snd (sql_step (disk_world room)).
Proof.
  intros room w a. destruct a as [c|rq|s|path body|p b|]; try reflexivity. cbn [sql_step disk_world on_write].
  destruct (create_html ex_text (ex_host room) (bundle_of b) p (gr_map b) (snd w)) as [d e]. reflexivity.
Qed.
(** Success, a full disk and a directory *)
Example disk_run_ex :
  snd (disk_run 5000 (lit "out.html")) = Ok tt /\
  option_map (fun t => map fst (elements t)) (snd (snd (fst (disk_run 5000 (lit "out.html")))) (lit "out.html")) = Some [lit "script"; lit "style"; lit "script"] /\
  snd (disk_run 300 (lit "out.html")) = Err (lit "failed to write template to html: no space left on device") /\
  option_map (@length N) (snd (snd (fst (disk_run 300 (lit "out.html")))) (lit "out.html")) = Some 300 /\
  snd (disk_run 5000 (lit "/")) = Err (lit "failed to create html file: open /: is a directory") /\
  snd (snd (fst (disk_run 5000 (lit "/")))) (lit "out.html") = Some (lit "the earlier report").
Proof. vm_compute. auto 8. Qed.
(** The reports of these runs can be read. *)
Lemma digits_fine : forall z, (0 <= z)%Z -> number_fine ex_text ex_value (inject_Z z).
Proof.
  intros z Hz. unfold number_fine, ex_text, ex_value. cbn [inject_Z Qnum].
  split; [apply Dec.dec_of_N_nonempty|]. split.
  - apply Forall_forall. intros x Hx. pose proof (Dec.dec_of_N_digits (Z.to_N z)) as HD.
    rewrite forallb_forall in HD. specialize (HD x Hx). unfold num_char, is_digit in *. rewrite HD. reflexivity.
  - rewrite Dec.dec_of_N_val. rewrite Z2N.id by exact Hz. reflexivity.
Qed.
Definition report_of (tr : list act) : build_option :=
  match filter ProgramProperties.is_write tr with AWrite _ b :: _ => b | _ => BoPi None None end.
Definition the_report : build_option := report_of (fst (fst (disk_run 5000 (lit "out.html")))).
Lemma only_report : forall p tr b, In (AWrite p b) tr -> length (filter ProgramProperties.is_write tr) = 1 -> b = report_of tr.
Proof.
  intros p tr b H E. assert (HI : In (AWrite p b) (filter ProgramProperties.is_write tr)) by (apply filter_In; auto).
  unfold report_of. destruct (filter ProgramProperties.is_write tr) as [|a [|]]; try discriminate. destruct HI as [->|[]]. reflexivity.
Qed.
Example disk_run_readable : forall b, In (AWrite (lit "out.html") b) (fst (fst (disk_run 5000 (lit "out.html")))) ->
  readable_report ex_text ex_value (fun q => Ok q) (ex_host 5000) b.
Proof.
  assert (HN : numbers (number_fine ex_text ex_value) (gr_map the_report)).
  { let t := eval vm_compute in (gr_map the_report) in change (gr_map the_report) with t.
    assert (H0 := digits_fine 0 ltac:(lia)). assert (H1 := digits_fine 1 ltac:(lia)). assert (H2 := digits_fine 2 ltac:(lia)). assert (H3 := digits_fine 3 ltac:(lia)).
    assert (H4 := digits_fine 4 ltac:(lia)). unfold inject_Z in *.
    cbn [numbers snd]. tauto. }
  assert (HF : fit (fun q => Ok q) the_report).
  { let t := eval vm_compute in the_report in change the_report with t.
    unfold fit. split; [split|]; cbn [sd_targets sd_result sd_nodes when_some].
    - repeat (apply Forall_cons; [discriminate|]); apply Forall_nil.
    - split; [discriminate|]. cbn [er_results]. repeat (apply Forall_cons; [discriminate|]); apply Forall_nil.
    - repeat (apply Forall_cons; [cbn [tree_all]; tauto|]); apply Forall_nil. }
  intros b Hb.
  assert (Eb : b = the_report).
  { apply (only_report (lit "out.html")) with (1 := Hb). vm_compute. reflexivity. }
  subst b. split; [exact HN|]. split; [exact HF|].
  split; intros t E; vm_compute in E; injection E as <-; apply stays_inb_ok; vm_compute; reflexivity.
Qed.
