(** C133: the file of the report. *)
From Coq Require Import String List NArith ZArith QArith Bool Lia Arith.
From Verif Require Import Base Json JsonSpec JsonProofs JsonProperties CommandText HandOver HandOverSpec HandOverProperties HtmlFile HtmlFileSpec HtmlFileProofs.
Import ListNotations.
Local Open Scope nat_scope.

Section File.
Context (num_text : Q -> gostring) (num_value : gostring -> option Q) (format : gostring -> outcome gostring) (h : host).

Lemma page_is_report : forall b style script,
    numbers (number_fine num_text num_value) (gr_map b) -> fit format b -> asset_fits h b ->
    ho_asset h (asset_path b ".js") = inl script -> ho_asset h (asset_path b ".css") = inl style ->
    is_report num_value format h b (page num_text (gr_map b) style script).
Proof.
  intros b style script Hn Hf [HA1 HA2] E1 E2. destruct (report_opens_its_page num_text num_value format b Hn Hf) as (v & p & R1 & R2 & R3).
  exists (report_script num_text (gr_map b)), style, script, v, p.
  split; [|auto 6]. apply page_elements; [eapply script_no_lt, Hn|apply HA2, E2|apply HA1, E1].
Qed.
(** Success means that the whole report is there and opens; no other file changes; an
    error before the file is made leaves the earlier report, an error behind it a
    beginning of the new one. *)
Theorem report_file : forall path b d d' e,
    numbers (number_fine num_text num_value) (gr_map b) -> fit format b -> asset_fits h b ->
    create_html num_text h (bundle_of b) path (gr_map b) d = (d', e) ->
    report_try num_value format h path b d d' e.
Proof.
  intros path b d d' e Hn Hf Ha H. unfold create_html in H.
  assert (EP : forall x, lit "client/dist/assets/" ++ type_text (bundle_of b) ++ of_string x = asset_path b x).
  { intros x. unfold asset_path, type_text, bundle_of. destruct b; reflexivity. }
  rewrite !EP in H. unfold report_try.
  destruct (ho_asset h (asset_path b ".js")) as [script|m] eqn:E1.
  2:{ injection H as <- <-. split; [reflexivity|]. left. split; [reflexivity|]. left. eexists. reflexivity. }
  destruct (ho_asset h (asset_path b ".css")) as [style|m] eqn:E2.
  2:{ injection H as <- <-. split; [reflexivity|]. left. split; [reflexivity|]. left. eexists. reflexivity. }
  destruct (ho_create h d path) as [m|] eqn:E3.
  { injection H as <- <-. split; [reflexivity|]. left. split; [reflexivity|]. right. eexists. reflexivity. }
  destruct (execute (ho_write h path) [] (pieces num_text (gr_map b) style script)) as [text er] eqn:E4.
  apply execute_spec in E4. destruct E4 as [E4 (rest & E5)]. cbn [app] in E4, E5. injection H as <- <-.
  assert (EW : put d path text path = Some text) by (unfold put; rewrite seqb_refl; reflexivity).
  pose proof (page_is_report b style script Hn Hf Ha E1 E2) as HP. unfold page in HP.
  split. { intros q Hq. unfold put. destruct (seqb q path) eqn:E; [|reflexivity]. apply seqb_eq in E. contradiction. }
  destruct er as [m|].
  - right. split; [eexists; reflexivity|]. exists text, rest. split; [exact EW|]. rewrite E5. exact HP.
  - exists text. split; [exact EW|]. rewrite E4 by reflexivity. exact HP.
Qed.
(** With the bundles built in, a file that may be made and room for it, the report is written. *)
Theorem report_file_made : forall path b d script style,
    ho_asset h (asset_path b ".js") = inl script -> ho_asset h (asset_path b ".css") = inl style ->
    ho_create h d path = None -> (forall a c, ho_write h path a c = None) ->
    snd (create_html num_text h (bundle_of b) path (gr_map b) d) = None.
Proof.
  intros path b d script style E1 E2 E3 E4. unfold create_html.
  assert (EP : forall x, lit "client/dist/assets/" ++ type_text (bundle_of b) ++ of_string x = asset_path b x).
  { intros x. unfold asset_path, type_text, bundle_of. destruct b; reflexivity. }
  rewrite !EP, E1, E2, E3. pose proof (execute_fine (ho_write h path) (pieces num_text (gr_map b) style script) [] E4) as H.
  destruct (execute _ _ _) as [text e]. cbn [snd] in *. subst e. reflexivity.
Qed.
End File.

(** A full disk: [room] characters may be written. *)
Definition ex_host (room : nat) : host :=
  {| ho_asset := fun p => if seqb p (lit "client/dist/assets/main.js") then inl (lit "run(window.grParam)")
                          else if seqb p (lit "client/dist/assets/main.css") then inl (lit "a<b{}") else inr (lit "file does not exist");
     ho_create := fun _ p => if seqb p (lit "/") then Some (lit "open /: is a directory") else None;
     ho_write := fun _ held t => if Nat.leb (length held + length t) room then None else Some (room - length held, lit "no space left on device") |}.
Definition ex_disk : disk := fun p => if seqb p (lit "out.html") then Some (lit "the earlier report") else None.
Definition ex_bo : build_option := ex_html SubMysql [ex_it "tasks" "user_id"] (Some ex_er).
Definition ex_made (room : nat) (path : gostring) : disk * option gostring :=
  create_html ex_text (ex_host room) Main path (gr_map ex_bo) ex_disk.
Example report_file_ex :
  numbers (number_fine ex_text ex_value) (gr_map ex_bo) /\ fit ex_format ex_bo /\ asset_fits (ex_host 5000) ex_bo /\
  snd (ex_made 5000 (lit "out.html")) = None /\
  option_map (fun t => map fst (elements t)) (fst (ex_made 5000 (lit "out.html")) (lit "out.html")) = Some [lit "script"; lit "style"; lit "script"].
Proof.
  destruct (report_opens_its_page_ex SubMysql) as [H1 H2]. split; [exact H1|]. split; [exact H2|].
  split; [split; intros t E; vm_compute in E; injection E as <-; apply stays_inb_ok; vm_compute; reflexivity|].
  split; vm_compute; reflexivity.
Qed.
(** The three ways to fail: without the bundle of the page and at a directory the earlier
    report is kept; when the disk is full it is lost, and the new one is cut. *)
Example report_file_fails :
  create_html ex_text (ex_host 5000) Mermaid (lit "out.html") (gr_map ex_bo) ex_disk =
    (ex_disk, Some (lit "failed to open file: file does not exist")) /\
  ex_made 5000 (lit "/") = (ex_disk, Some (lit "failed to create html file: open /: is a directory")) /\
  snd (ex_made 300 (lit "out.html")) = Some (lit "failed to write template to html: no space left on device") /\
  option_map (@length N) (fst (ex_made 300 (lit "out.html")) (lit "out.html")) = Some 300 /\
  option_map elements (fst (ex_made 300 (lit "out.html")) (lit "out.html")) = Some [].
Proof. vm_compute. auto 6. Qed.
(** Finding: the report is not written beside the earlier one and renamed; with no room at
    all the earlier report is empty. *)
Theorem earlier_report_lost : forall num_text path gr d style script m,
    let h := {| ho_asset := fun p => if seqb p (lit "client/dist/assets/main.js") then inl script else inl style;
                ho_create := fun _ _ => None; ho_write := fun _ _ _ => Some (0, m) |} in
    exists d' e, create_html num_text h Main path gr d = (d', Some e) /\ d' path = Some [].
Proof.
  intros num_text path gr d style script m h. unfold create_html. subst h. cbn [ho_asset ho_create ho_write type_text].
  change (seqb (lit "client/dist/assets/" ++ lit "main" ++ lit ".js") (lit "client/dist/assets/main.js")) with true.
  change (seqb (lit "client/dist/assets/" ++ lit "main" ++ lit ".css") (lit "client/dist/assets/main.js")) with false.
  unfold pieces. cbn [execute firstn app]. eexists _, _. split; [reflexivity|]. unfold put. now rewrite seqb_refl.
Qed.

Print Assumptions report_file.
Print Assumptions report_file_made.
Print Assumptions earlier_report_lost.
