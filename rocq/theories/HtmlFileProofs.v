(** Proofs about the file of the report. *)
From Coq Require Import String List NArith ZArith QArith Bool Lia Arith.
From Verif Require Import Base Json JsonSpec JsonProofs JsonProperties HandOver HtmlFile HtmlFileSpec.
Import ListNotations.
Local Open Scope nat_scope.

(** No start tag begins in [p]: behind every < there is a character, and it is no s *)
Fixpoint calm (p : gostring) : bool :=
  match p with
  | [] => true
  | c :: p' => (if N.eqb (lowered c) 60 then match p' with d :: _ => negb (N.eqb 115 (lowered d)) | [] => false end else true) && calm p'
  end.
Lemma opens_not : forall c s, N.eqb (lowered c) 60 = false -> opens (c :: s) = None.
Proof.
  intros c s H. unfold opens. change (of_string "<script>") with (60%N :: of_string "script>"). change (of_string "<style>") with (60%N :: of_string "style>").
  cbn [after]. rewrite N.eqb_sym, H. reflexivity.
Qed.
Lemma opens_not2 : forall c d s, N.eqb 115 (lowered d) = false -> opens (c :: d :: s) = None.
Proof.
  intros c d s H. unfold opens. change (of_string "<script>") with (60%N :: 115%N :: of_string "cript>"). change (of_string "<style>") with (60%N :: 115%N :: of_string "tyle>").
  cbn [after]. rewrite H. destruct (N.eqb 60 (lowered c)); reflexivity.
Qed.
Lemma calm_skips : forall p s n, calm p = true -> elements_in (length p + n) (p ++ s) = elements_in n s.
Proof.
  induction p as [|c p IH]; intros s n H; [reflexivity|]. cbn [calm] in H. apply andb_true_iff in H. destruct H as [H1 H2].
  cbn [length app Nat.add]. cbn [elements_in].
  replace (opens (c :: p ++ s)) with (@None (gostring * gostring)); [apply IH, H2|]. symmetry.
  destruct (N.eqb (lowered c) 60) eqn:E; [|apply opens_not, E].
  destruct p as [|d p]; [discriminate|]. cbn [app]. apply opens_not2. now apply negb_true_iff.
Qed.
Lemma after_app : forall p q s, (forall x, In x p -> x <> 60%N) ->
    after p q = None -> after p (q ++ 60%N :: s) = None.
Proof.
  induction p as [|x p IH]; intros q s Hp H; [discriminate|]. destruct q as [|y q]; cbn [app after] in *.
  - change (lowered 60) with 60%N. destruct (N.eqb_spec x 60); [|reflexivity]. elim (Hp x (or_introl eq_refl)). assumption.
  - destruct (N.eqb x (lowered y)); [|reflexivity]. apply IH; [intros z Hz; apply Hp; now right|exact H].
Qed.
Lemma raw_text_of : forall name t s, (forall x, In x name -> x <> 60%N) -> stays_in name t ->
    closes name (60%N :: s) = true -> raw_text name (t ++ 60%N :: s) = Some (t, 60%N :: s).
Proof.
  intros name t s Hn. induction t as [|c t IH]; intros Ht Hc.
  - cbn [app raw_text]. rewrite Hc. reflexivity.
  - cbn [app raw_text].
    assert (HA : after (of_string "</" ++ name) ((c :: t) ++ 60%N :: s) = None).
    { pose proof (Ht [] (c :: t) eq_refl) as H. change (of_string "</" ++ name) with (60%N :: 47%N :: name) in *.
      cbn [app after] in *. destruct (N.eqb 60 (lowered c)); [|reflexivity].
      apply (after_app (47%N :: name)); [|exact H]. intros x [<-|Hx]; [discriminate|now apply Hn]. }
    unfold closes at 1. cbn [app] in HA. rewrite HA. rewrite IH; [reflexivity| |exact Hc].
    intros a b E. apply (Ht (c :: a) b). cbn [app]. now rewrite E.
Qed.
Lemma no_lt_stays : forall name t, ~ In 60%N t -> Forall (fun c => lowered c = 60%N -> c = 60%N) t -> stays_in name t.
Proof.
  intros name t Hn HF a b ->. change (of_string "</" ++ name) with (60%N :: 47%N :: name). destruct b as [|c b]; [reflexivity|].
  cbn [after]. destruct (N.eqb_spec 60 (lowered c)) as [E|]; [|reflexivity]. exfalso. apply Hn, in_or_app. right. left.
  apply Forall_app in HF. destruct HF as [_ HF]. inversion HF; subst. auto.
Qed.
Lemma lowered_lt : forall c, lowered c = 60%N -> c = 60%N.
Proof. intros c. unfold lowered. destruct (N.leb 65 c && N.leb c 90)%bool eqn:E; [|auto]. apply andb_true_iff in E. destruct E as [E1 E2]. apply N.leb_le in E1. lia. Qed.
Fixpoint stays_inb (name t : gostring) : bool :=
  match after (of_string "</" ++ name) t with Some _ => false | None => match t with [] => true | _ :: t' => stays_inb name t' end end.
Lemma stays_inb_ok : forall name t, stays_inb name t = true -> stays_in name t.
Proof.
  intros name. induction t as [|c t IH]; intros H a b E.
  - destruct a; [|discriminate]. cbn [app] in E. subst b. reflexivity.
  - cbn [stays_inb] in H. destruct (after (of_string "</" ++ name) (c :: t)) eqn:E1; [discriminate|].
    destruct a as [|x a]; cbn [app] in E; [now subst b|]. injection E as _ E. exact (IH H _ _ E).
Qed.
Lemma opens_script : forall s, opens (of_string "<script>" ++ s) = Some (of_string "script", s).
Proof. reflexivity. Qed.
Lemma opens_style : forall s, opens (of_string "<style>" ++ s) = Some (of_string "style", s).
Proof. reflexivity. Qed.

Section Page.
Variable num_text : Q -> gostring.
Definition page (gr : jv) (style script : gostring) : gostring := List.concat (pieces num_text gr style script).

(** The template as a reader of tags cuts it *)
Definition pre : gostring :=
  nl_ ++ lit "<!DOCTYPE html>" ++ nl_ ++ lit "<html lang=""en"">" ++ nl_ ++ lit "  <head>" ++ nl_ ++
  lit "    <meta charset=""UTF-8"" />" ++ nl_ ++
  lit "    <meta name=""viewport"" content=""width=device-width, initial-scale=1.0"" />" ++ nl_ ++
  lit "    <title>GravityR</title>" ++ nl_ ++ tab_.
Definition mid1 : gostring := lit "</script>" ++ nl_ ++ tab_.
Definition mid2 : gostring :=
  lit "</style>" ++ nl_ ++ lit "  </head>" ++ nl_ ++ lit "  <body>" ++ nl_ ++ lit "    <div id=""app""></div>" ++ nl_ ++ lit "    ".
Lemma page_cut : forall gr style script, page gr style script =
    pre ++ lit "<script>" ++ report_script num_text gr ++ mid1 ++ lit "<style>" ++ style ++ mid2 ++ lit "<script>" ++ script ++ tmpl_end.
Proof.
  intros gr style script. unfold page, pieces, report_script. cbn [List.concat]. rewrite app_nil_r.
  replace tmpl_head with (pre ++ lit "<script>" ++ [10%N] ++ lit "      window.grParam = ") by reflexivity.
  replace tmpl_style with ([10%N] ++ lit "    " ++ mid1 ++ lit "<style>") by reflexivity.
  replace tmpl_body with (mid2 ++ lit "<script>") by reflexivity.
  rewrite <- !app_assoc. reflexivity.
Qed.
Lemma elements_script : forall n p t s, calm p = true -> stays_in (lit "script") t -> closes (lit "script") (60%N :: s) = true ->
    elements_in (length p + S n) (p ++ lit "<script>" ++ t ++ 60%N :: s) = (lit "script", t) :: elements_in n (60%N :: s).
Proof.
  intros n p t s Hp Ht Hc. rewrite calm_skips by exact Hp. cbn [elements_in]. rewrite opens_script.
  rewrite raw_text_of; [reflexivity| |exact Ht|exact Hc].
  intros x Hx. vm_compute in Hx. intros ->. intuition discriminate.
Qed.
Lemma elements_style : forall n p t s, calm p = true -> stays_in (lit "style") t -> closes (lit "style") (60%N :: s) = true ->
    elements_in (length p + S n) (p ++ lit "<style>" ++ t ++ 60%N :: s) = (lit "style", t) :: elements_in n (60%N :: s).
Proof.
  intros n p t s Hp Ht Hc. rewrite calm_skips by exact Hp. cbn [elements_in]. rewrite opens_style.
  rewrite raw_text_of; [reflexivity| |exact Ht|exact Hc].
  intros x Hx. vm_compute in Hx. intros ->. intuition discriminate.
Qed.
(** More steps find nothing more *)
Lemma after_short : forall p s r, after p s = Some r -> length s = length p + length r.
Proof.
  induction p as [|x p IH]; intros s r H; [injection H as ->; reflexivity|]. destruct s as [|y s]; [discriminate|]. cbn [after] in H.
  destruct (N.eqb x (lowered y)); [|discriminate]. cbn [length]. rewrite (IH _ _ H). reflexivity.
Qed.
Lemma opens_short : forall s name r, opens s = Some (name, r) -> length r < length s.
Proof.
  intros s name r H. unfold opens in H. destruct (after (of_string "<script>") s) eqn:E1.
  - injection H as _ <-. apply after_short in E1. change (length (of_string "<script>")) with 8 in E1. lia.
  - destruct (after (of_string "<style>") s) eqn:E2; [|discriminate]. injection H as _ <-. apply after_short in E2. change (length (of_string "<style>")) with 7 in E2. lia.
Qed.
Lemma raw_text_short : forall name s t r, raw_text name s = Some (t, r) -> length r <= length s.
Proof.
  intros name. induction s as [|c s IH]; intros t r H; cbn [raw_text] in H.
  - destruct (closes name []); [|discriminate]. injection H as _ <-. lia.
  - destruct (closes name (c :: s)); [injection H as _ <-; lia|]. destruct (raw_text name s) as [[t' r']|] eqn:E; [|discriminate].
    injection H as _ <-. specialize (IH _ _ eq_refl). cbn [length]. lia.
Qed.
Lemma elements_enough : forall n m s, length s <= n -> length s <= m -> elements_in n s = elements_in m s.
Proof.
  induction n as [|n IH]; intros m s Hn Hm.
  - destruct s; [|cbn in Hn; lia]. destruct m; reflexivity.
  - destruct m as [|m]; [destruct s; [reflexivity|cbn in Hm; lia]|]. cbn [elements_in].
    destruct (opens s) as [[name r]|] eqn:E.
    + apply opens_short in E. destruct (raw_text name r) as [[t r']|] eqn:E2; [|reflexivity]. apply raw_text_short in E2. f_equal. apply IH; lia.
    + destruct s as [|c s]; [reflexivity|]. cbn [length] in *. apply IH; lia.
Qed.
Lemma page_elements : forall gr style script,
    ~ In 60%N (report_script num_text gr) -> stays_in (lit "style") style -> stays_in (lit "script") script ->
    elements (page gr style script) = [(lit "script", report_script num_text gr); (lit "style", style); (lit "script", script)].
Proof.
  intros gr style script Hgr Hst Hsc. unfold elements.
  set (n := length (page gr style script)).
  rewrite (elements_enough n (length pre + S (length mid1 + S (length mid2 + S (length tmpl_end + n)))) (page gr style script)) by lia.
  rewrite page_cut.
  replace (mid1 ++ lit "<style>" ++ style ++ mid2 ++ lit "<script>" ++ script ++ tmpl_end)
    with (60%N :: tl mid1 ++ lit "<style>" ++ style ++ mid2 ++ lit "<script>" ++ script ++ tmpl_end) by reflexivity.
  rewrite elements_script; [|vm_compute; reflexivity|apply no_lt_stays; [exact Hgr|apply Forall_forall; intros x _; apply lowered_lt]|reflexivity].
  f_equal.
  replace (60%N :: tl mid1 ++ lit "<style>" ++ style ++ mid2 ++ lit "<script>" ++ script ++ tmpl_end)
    with (mid1 ++ lit "<style>" ++ style ++ 60%N :: tl mid2 ++ lit "<script>" ++ script ++ tmpl_end) by reflexivity.
  rewrite elements_style; [|vm_compute; reflexivity|exact Hst|reflexivity]. f_equal.
  replace (60%N :: tl mid2 ++ lit "<script>" ++ script ++ tmpl_end) with (mid2 ++ lit "<script>" ++ script ++ 60%N :: tl tmpl_end) by reflexivity.
  rewrite elements_script; [|vm_compute; reflexivity|exact Hsc|reflexivity]. apply f_equal.
  replace (60%N :: tl tmpl_end) with (tmpl_end ++ []) by reflexivity. rewrite calm_skips by (vm_compute; reflexivity). destruct n; reflexivity.
Qed.
Lemma script_no_lt : forall num_value gr, numbers (number_fine num_text num_value) gr -> ~ In 60%N (report_script num_text gr).
Proof.
  intros num_value gr Hn. destruct (report_text_stays_inside num_text num_value gr Hn) as (H & _ & _).
  unfold report_script. rewrite !in_app_iff. intros [E|[E|[E|[E|E]]]].
  - cbn in E. destruct E as [E|E]; [discriminate|exact E].
  - vm_compute in E. intuition discriminate.
  - destruct (H _ E) as [_ K]. apply K. left. reflexivity.
  - cbn in E. destruct E as [E|E]; [discriminate|exact E].
  - vm_compute in E. intuition discriminate.
Qed.
Lemma execute_spec : forall wr l sofar text e, execute wr sofar l = (text, e) ->
    (e = None -> text = sofar ++ List.concat l) /\ exists rest, text ++ rest = sofar ++ List.concat l.
Proof.
  intros wr. induction l as [|c l IH]; intros sofar text e H; cbn [execute List.concat] in *.
  - injection H as <- <-. rewrite app_nil_r. split; [reflexivity|]. exists []. apply app_nil_r.
  - destruct (wr sofar c) as [[k m]|].
    + injection H as <- <-. split; [discriminate|]. exists (skipn k c ++ List.concat l). rewrite <- app_assoc. f_equal. rewrite app_assoc, firstn_skipn. reflexivity.
    + destruct (IH _ _ _ H) as [H1 H2]. rewrite <- app_assoc in *. auto.
Qed.
Lemma execute_fine : forall wr l sofar, (forall a b, wr a b = None) -> snd (execute wr sofar l) = None.
Proof. intros wr. induction l as [|c l IH]; intros sofar H; [reflexivity|]. cbn [execute]. rewrite H. apply IH, H. Qed.
End Page.
