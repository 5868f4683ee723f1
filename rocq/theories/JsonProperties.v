(** The text of the data in the report. *)
From Coq Require Import String List NArith ZArith QArith Bool Lia Arith.
From Verif Require Import Base Dec Json JsonSpec JsonProofs.
Import ListNotations.
Local Open Scope nat_scope.

(** C85: the browser reads exactly the data that the command wrote. *)
Theorem report_text_read_back (num_text : Q -> gostring) (num_value : gostring -> option Q) (v : jv) :
  numbers (number_fine num_text num_value) v ->
  script_value num_value (report_script num_text v) = Some v.
Proof. apply script_reads. Qed.

(** C85: no text in the data ends the script element, opens a comment or a line of its
    own, or is an entity. *)
Theorem report_text_stays_inside (num_text : Q -> gostring) (num_value : gostring -> option Q) (v : jv) :
  numbers (number_fine num_text num_value) v ->
  (forall c, In c (json_text num_text v) -> (32 <= c)%N /\ ~ In c [60; 62; 38; 8232; 8233]%N) /\
  ~ occurs (lit "</script") (report_script num_text v) /\
  ~ occurs (lit "<!--") (report_script num_text v).
Proof.
  intros Hv. pose proof (text_harmless num_text num_value v Hv) as H. rewrite Forall_forall in H.
  assert (Hc : forall c, In c (json_text num_text v) -> (32 <= c)%N /\ ~ In c [60; 62; 38; 8232; 8233]%N).
  { intros c Hin. destruct (H c Hin) as (H1 & H2 & H3 & H4 & H5 & H6). split; [exact H1|].
    cbn [In]. intros [E|[E|[E|[E|[E|E]]]]]; try contradiction; congruence. }
  split; [exact Hc|].
  assert (Hlt : ~ In 60%N (report_script num_text v)).
  { unfold report_script. rewrite !in_app_iff. intros [E|[E|[E|[E|E]]]].
    - cbn in E. destruct E as [E|E]; [discriminate|exact E].
    - vm_compute in E. intuition discriminate.
    - destruct (Hc _ E) as [_ Hn]. apply Hn. left. reflexivity.
    - cbn in E. destruct E as [E|E]; [discriminate|exact E].
    - vm_compute in E. intuition discriminate. }
  split; intros (a & b & E); apply Hlt; rewrite E, in_app_iff; right; left; reflexivity.
Qed.

(** A query that tries to leave the script, in an object with every kind of value. *)
Definition ex_text (q : Q) : gostring := dec_of_N (Z.to_N (Qnum q)).
Definition ex_value (s : gostring) : option Q := Some (inject_Z (Z.of_N (digits_val 0 s))).
Definition ex_data : jv :=
  JObj [(lit "query", JStr (lit "SELECT '</script><script>' & ""x\y"" " ++ [10%N; 8232%N; 0%N]));
        (lit "rows", JArr [JNum 120; JNull; JBool true; JBool false; JArr []; JObj []])].
Example ex_data_fine : numbers (number_fine ex_text ex_value) ex_data.
Proof.
  cbn [ex_data numbers snd]. split; [exact I|]. split; [|exact I]. split; [|tauto].
  split; [discriminate|]. split; [|reflexivity].
  apply Forall_forall. apply forallb_forall. reflexivity.
Qed.
Example ex_data_text :
  json_text ex_text ex_data =
  lit "{""query"":""SELECT '\u003c/script\u003e\u003cscript\u003e' \u0026 \""x\\y\"" \n\u2028\u0000"",""rows"":[120,null,true,false,[],{}]}".
Proof. vm_compute. reflexivity. Qed.
Example ex_data_read : script_value ex_value (report_script ex_text ex_data) = Some ex_data.
Proof. vm_compute. reflexivity. Qed.

Print Assumptions report_text_read_back.
Print Assumptions report_text_stays_inside.
