(** C143: what the other files say about strings as lists of code points holds of their
    bytes.  C144: a report of data with any bytes. *)
From Coq Require Import String List NArith ZArith QArith Bool Lia Arith.
From Verif Require Import Base Json JsonSpec JsonProofs Utf8 Utf8Spec Utf8Proofs JsonBytesProofs.
Import ListNotations.
Local Open Scope nat_scope.

(** The texts of code points that are characters have exactly one sequence of bytes, Go
    writes that one and reads it back. *)
Theorem utf8_one_to_one :
  (forall t, Forall scalar t -> text_bytes t (encode t)) /\
  (forall t b, text_bytes t b -> Forall scalar t /\ encode t = b /\ decode b = t) /\
  (forall t u b, text_bytes t b -> text_bytes u b -> t = u) /\
  (forall t b d, text_bytes t b -> text_bytes t d -> b = d).
Proof.
  split; [exact text_bytes_encode|]. split; [|split; [exact text_bytes_unique|]].
  - intros t b H. destruct (text_bytes_scalar t b H) as [H1 H2]. split; [exact H1|]. split; [now symmetry|].
    exact (repaired_unique _ _ _ (decode_repaired b) (text_repaired _ _ H)).
  - intros t b d H K. apply text_bytes_scalar in H as [_ ->], K as [_ ->]. reflexivity.
Qed.

(** Comparing, measuring, joining, splitting and searching the bytes is the same as doing it
    with the code points. *)
Theorem utf8_operations : forall a x b y, text_bytes a x -> text_bytes b y ->
  seqb a b = seqb x y /\ sltb a b = sltb x y /\ (sltb x y = true <-> lex_less x y) /\ byte_len a = length x /\ text_bytes (a ++ b) (x ++ y) /\
  (starts a b <-> starts x y) /\ (finishes a b <-> finishes x y) /\ (part_of a b <-> part_of x y) /\
  (forall sep, (sep < 128)%N -> Forall2 text_bytes (split sep a) (split sep x)).
Proof.
  intros a x b y A B. split; [|split; [|split; [|split; [|split; [|split; [|split; [|split]]]]]]].
  - apply eq_true_iff_eq. rewrite !seqb_eq. split; [|intros ->; now apply text_bytes_unique with y].
    intros ->. apply text_bytes_scalar in A as [_ ->], B as [_ ->]. reflexivity.
  - apply eq_true_iff_eq. rewrite !sltb_lex. now apply order_iff.
  - apply sltb_lex.
  - now apply length_bytes.
  - now apply text_bytes_app.
  - now apply starts_iff.
  - now apply finishes_iff.
  - now apply contains_iff.
  - intros sep L. now apply split_bytes.
Qed.

(** C144: any bytes are read as one text; they are that text exactly if they are UTF-8, and
    otherwise it has U+FFFD. *)
Theorem any_bytes_read : forall b, repaired b (decode b) /\ (forall t, repaired b t -> t = decode b) /\ Forall scalar (decode b) /\
  ((exists t, text_bytes t b) -> text_bytes (decode b) b) /\
  (~ (exists t, text_bytes t b) -> In 65533%N (decode b) /\ encode (decode b) <> b).
Proof.
  intros b. pose proof (decode_repaired b) as R. split; [exact R|]. split; [|split; [now apply repaired_scalar in R|split]].
  - intros t H. now apply repaired_unique with b.
  - intros (t & T). rewrite (repaired_unique _ _ _ R (text_repaired _ _ T)). exact T.
  - intros N. split; [now apply repaired_text with b|]. intros E. apply N. exists (decode b). rewrite <- E at 2. apply text_bytes_encode. now apply repaired_scalar in R.
Qed.

(** C144: whatever bytes are in the data, the script of the report is UTF-8 and gives the
    page the data with each string read as a text; the script is not left early. *)
Theorem report_of_bytes : forall num_text num_value v, numbers (number_fine num_text num_value) v ->
  exists txt v', text_bytes txt (report_bytes num_text v) /\ repaired_value v v' /\ script_value num_value txt = Some v' /\
    forall c, In c (report_bytes num_text v) -> c <> 60%N /\ c <> 62%N /\ c <> 38%N.
Proof.
  intros num_text num_value v H. exists (script_with (quoted text_in) num_text v), (as_read decode v).
  assert (text_bytes (script_with (quoted text_in) num_text v) (report_bytes num_text v)) as TB.
  { unfold report_bytes, script_with. apply text_bytes_app; [apply ascii_bytes; reflexivity|]. apply text_bytes_app; [apply ascii_bytes; reflexivity|].
    apply text_bytes_app; [now apply with_bytes with num_value|]. apply ascii_bytes. reflexivity. }
  split; [exact TB|]. split; [apply as_read_repaired|]. split; [exact (script_as text_in decode num_text num_value text_in_read v H)|].
  assert (forall c, In c (script_with (quoted text_in) num_text v) -> c <> 60%N /\ c <> 62%N /\ c <> 38%N) as SAFE.
  { pose proof (text_safe text_in num_text num_value text_in_safe v H) as S1. rewrite Forall_forall in S1.
    assert (forall l, forallb (fun c => negb (N.eqb c 60 || N.eqb c 62 || N.eqb c 38)) l = true -> forall c, In c l -> c <> 60%N /\ c <> 62%N /\ c <> 38%N) as LIT.
    { intros l L c I. rewrite forallb_forall in L. specialize (L c I). rewrite negb_true_iff, !orb_false_iff, !N.eqb_neq in L. tauto. }
    intros c I. unfold script_with in I. apply in_app_iff in I as [I | I]; [now apply (LIT [10%N])|]. apply in_app_iff in I as [I | I].
    - revert I. apply LIT. reflexivity.
    - apply in_app_iff in I as [I | I]; [destruct (S1 c I) as (_ & S2 & S3 & S4 & _); auto|]. revert I. apply LIT. reflexivity. }
  intros c I.
  assert ((c < 128)%N -> In c (script_with (quoted text_in) num_text v)) as ASC.
  { intros L. assert (text_bytes [c] [c]) as C1 by exact (tb_cons c [c] [] [] (cb_one c L) tb_nil). destruct (contains_iff _ _ _ _ C1 TB) as [_ C2].
    destruct C2 as (p & q & E); [apply in_split in I as (p & q & E); now exists p, q|]. rewrite E. apply in_or_app. right. now left. }
  destruct (N.ltb_spec c 128) as [L|L]; [now apply SAFE, ASC|]. lia.
Qed.

(** A report does not always tell the data: a text of ISO 8859-1 is damaged, and two of them
    give the same report. *)
Theorem bytes_kept_refuted : forall num_text,
  ~ (forall v w, report_bytes num_text v = report_bytes num_text w -> v = w) /\
  ~ (forall s, encode (decode s) = s).
Proof.
  intros num_text. split.
  - intros H. specialize (H (JStr [233%N]) (JStr [232%N]) eq_refl). discriminate.
  - intros H. specialize (H [233%N]). vm_compute in H. discriminate.
Qed.
(** For data of texts nothing is lost: the bytes are those of the script of [report_script],
    the page has the texts, and only the same data give the same report. *)
Theorem texts_kept : forall num_text num_value t v, value_bytes t v -> numbers (number_fine num_text num_value) v ->
  text_bytes (report_script num_text t) (report_bytes num_text v) /\ script_value num_value (report_script num_text t) = Some t /\
  forall u w, value_bytes u w -> numbers (number_fine num_text num_value) w -> report_bytes num_text v = report_bytes num_text w -> v = w.
Proof.
  intros num_text num_value. 
  assert (forall t v, value_bytes t v -> numbers (number_fine num_text num_value) v ->
    text_bytes (report_script num_text t) (report_bytes num_text v) /\ script_value num_value (report_script num_text t) = Some t) as ONE.
  { intros t v VB H.
    assert (report_script num_text t = script_with (quoted text_in) num_text v) as ->.
    { unfold report_script, script_with. now rewrite (texts_with _ _ _ VB). }
    split.
    - unfold report_bytes, script_with. apply text_bytes_app; [apply ascii_bytes; reflexivity|]. apply text_bytes_app; [apply ascii_bytes; reflexivity|].
      apply text_bytes_app; [now apply with_bytes with num_value|]. apply ascii_bytes. reflexivity.
    - rewrite <- (value_bytes_read _ _ VB) at 1. exact (script_as text_in decode num_text num_value text_in_read v H). }
  intros t v VB H. destruct (ONE t v VB H) as [T R]. split; [exact T|]. split; [exact R|].
  intros u w VB' H' E. destruct (ONE u w VB' H') as [T' R']. rewrite E in T. rewrite (text_bytes_unique _ _ _ T T') in R.
  assert (t = u) as -> by congruence. exact (value_bytes_fun _ _ _ VB VB').
Qed.

(** ** Cases *)
(** the euro sign and a G clef, between quotes *)
Definition ex_euro : gostring := [39%N; 8364%N; 119070%N; 39%N].
Example utf8_ex : Forall scalar ex_euro /\ text_bytes ex_euro [39; 226; 130; 172; 240; 157; 132; 158; 39]%N /\
  encode ex_euro = [39; 226; 130; 172; 240; 157; 132; 158; 39]%N /\ byte_len ex_euro = 9 /\
  decode [39; 226; 130; 172; 240; 157; 132; 158; 39]%N = ex_euro /\ sltb [65533%N] [65536%N] = true /\ part_of [8364%N] ex_euro.
Proof.
  assert (Forall scalar ex_euro) as F by (repeat (constructor; [unfold scalar; lia|]); constructor).
  split; [exact F|]. split; [exact (text_bytes_encode _ F)|]. split; [reflexivity|]. split; [reflexivity|]. split; [vm_compute; reflexivity|]. split; [reflexivity|].
  exists [39%N], [119070%N; 39%N]. reflexivity.
Qed.
(** an overlong slash, a surrogate, a cut off sequence and a Latin-1 letter *)
Example damaged_ex : decode [192; 175; 237; 160; 128; 226; 130; 233; 65]%N = [65533; 65533; 65533; 65533; 65533; 65533; 65533; 65533; 65]%N /\
  ~ (exists t, text_bytes t [233; 65]%N) /\
  json_string_bytes [99; 97; 102; 233; 60; 226; 128; 168]%N = lit """caf\ufffd\u003c\u2028""".
Proof.
  split; [vm_compute; reflexivity|]. split; [|vm_compute; reflexivity]. intros (t & T).
  destruct (proj1 (proj2 utf8_one_to_one) _ _ T) as (_ & E & D). rewrite <- D in E. vm_compute in E. discriminate.
Qed.
Example report_of_bytes_ex :
  numbers (number_fine (fun _ => lit "0") (fun _ => None)) (JObj [(lit "query", JStr [233; 65]%N)]) /\
  report_bytes (fun _ => lit "0") (JObj [(lit "query", JStr [233; 65]%N)]) = [10%N] ++ lit "      window.grParam = {""query"":""\ufffdA""}" ++ [10%N] ++ lit "    ".
Proof. split; [cbn; tauto|]. vm_compute. reflexivity. Qed.

Example texts_kept_ex : value_bytes (JObj [(lit "price", JStr [8364; 53]%N)]) (JObj [(lit "price", JStr [226; 130; 172; 53]%N)]) /\
  numbers (number_fine (fun _ => lit "0") (fun _ => None)) (JObj [(lit "price", JStr [226; 130; 172; 53]%N)]).
Proof.
  split; [|cbn; tauto]. constructor. constructor; [|constructor]. cbn [fst snd]. split; [apply ascii_bytes; reflexivity|]. constructor.
  change [226; 130; 172; 53]%N with (encode [8364; 53]%N). apply text_bytes_encode. repeat (constructor; [unfold scalar; lia|]). constructor.
Qed.

Print Assumptions utf8_one_to_one.
Print Assumptions utf8_operations.
Print Assumptions any_bytes_read.
Print Assumptions report_of_bytes.
Print Assumptions bytes_kept_refuted.
Print Assumptions texts_kept.
