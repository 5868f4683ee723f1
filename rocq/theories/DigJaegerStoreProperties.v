(** C112: what the Jaeger dig command finds of the traces a server keeps. *)
From Coq Require Import String List NArith ZArith QArith Bool Lia Arith Permutation.
From Verif Require Import Base IndexBuild Json JsonSpec ExplainTree ExplainSpec Otel OtelSpec OtelProperties
  Pi HandOver ProgramSpec DigProgram DigPage DigProgramSpec DigJaegerProperties.
From Verif Require HandOverSpec JsonProperties Dec.
Import ListNotations.
Local Open Scope nat_scope.

Lemma sublist_in : forall A (P : A -> Prop) l m x, sublist_where P l m -> In x l -> P x -> In x m.
Proof. intros A P l m x H. induction H as [|y l m Hy H IH|y l m Hy H IH]; intros HI HP; [destruct HI| |]; destruct HI as [->|HI]; [now left|right; auto|contradiction|auto]. Qed.
Section Window.
Context (fl : jaeger_flags) (s e : Z) (l : answers) (HA : asked fl s l)
  (HL : forall i, i < length l <-> (s + Z.of_nat i * 1800000000000 < e)%Z).
(** The question whose half hour [x] is in *)
Lemma window_of : forall tr x, wanted fl s e tr x -> exists i q a, nth_error l i = Some (q, a) /\ fits q tr /\
    (q_min q * 1000000000 <= x < q_max q * 1000000000)%Z.
Proof.
  intros tr x (sp & rs & H1 & H2 & H3 & H4 & H5 & H6).
  set (i := Z.to_nat ((x / 1000000000 - s / 1000000000) / 1800)).
  pose proof (Z.div_mod x 1000000000 ltac:(lia)) as X1. pose proof (Z.mod_pos_bound x 1000000000 ltac:(lia)) as X2.
  pose proof (Z.div_mod s 1000000000 ltac:(lia)) as S1. pose proof (Z.mod_pos_bound s 1000000000 ltac:(lia)) as S2.
  pose proof (Z.div_mod e 1000000000 ltac:(lia)) as E1. pose proof (Z.mod_pos_bound e 1000000000 ltac:(lia)) as E2.
  set (ux := (x / 1000000000)%Z) in *. set (us := (s / 1000000000)%Z) in *. set (ue := (e / 1000000000)%Z) in *.
  assert (HD : (us <= ux)%Z) by (unfold us, ux; apply Z.div_le_mono; lia).
  pose proof (Z.div_mod (ux - us) 1800 ltac:(lia)) as D1. pose proof (Z.mod_pos_bound (ux - us) 1800 ltac:(lia)) as D2.
  assert (HI : Z.of_nat i = ((ux - us) / 1800)%Z) by (unfold i; apply Z2Nat.id, Z.div_pos; lia).
  set (k := ((ux - us) / 1800)%Z) in *. clearbody k i.
  assert (HT : (s + Z.of_nat i * 1800000000000 < e)%Z) by lia.
  apply HL in HT. destruct (nth_error l i) as [[q a]|] eqn:EN; [|apply nth_error_None in EN; lia].
  exists i, q, a. split; [exact EN|]. destruct (HA i q a EN) as (Q1 & Q2 & Q3 & Q4 & Q5 & Q6).
  assert (HQ : q_min q = (us + k * 1800)%Z) by lia. split; [|lia].
  exists sp, rs. split; [exact H1|]. rewrite Q1. split; [exact H2|]. split; lia.
Qed.

(** Everything wanted is received. *)
Lemma wanted_received : forall store tr x, keeps store l -> In tr store -> wanted fl s e tr x -> In tr (received l).
Proof.
  intros store tr x HK HI HW. destruct (window_of tr x HW) as (i & q & a & EN & HF & _). apply nth_error_In in EN.
  destruct (HK q a EN) as (traces & -> & HS). unfold received. apply in_flat_map. exists (q, Ok traces). split; [exact EN|]. cbn [snd].
  eapply sublist_in; eauto.
Qed.
(** Nothing else is received. *)
Lemma received_kept : forall store tr, keeps store l -> In tr (received l) -> In tr store /\ exists i q a, nth_error l i = Some (q, a) /\ fits q tr.
Proof.
  intros store tr HK HI. unfold received in HI. apply in_flat_map in HI. destruct HI as ([q a] & H1 & H2). destruct (HK q a H1) as (traces & -> & HS). cbn [snd] in H2.
  assert (K : In tr store /\ fits q tr).
  { clear - HS H2. induction HS as [|y m m' Hy H IH|y m m' Hy H IH]; [destruct H2| |]; [destruct H2 as [->|H2]; [split; [now left|exact Hy]|]|]; destruct (IH H2); split; auto; now right. }
  destruct K as [K1 K2]. split; [exact K1|]. apply In_nth_error in H1. destruct H1 as (i & H1). exists i, q, (Ok traces). split; assumption.
Qed.
(** A trace wanted in two half hours is received twice. *)
Lemma wanted_twice : forall store tr x y, keeps store l -> In tr store -> wanted fl s e tr x -> wanted fl s e tr y ->
    (x / 1000000000 + 1800 <= y / 1000000000)%Z -> exists a b c, received l = a ++ tr :: b ++ tr :: c.
Proof.
  intros store tr x y HK HI HX HY HD. destruct (window_of tr x HX) as (i & q & a & E1 & F1 & B1). destruct (window_of tr y HY) as (j & q' & a' & E2 & F2 & B2).
  assert (HG : forall p z, nth_error l p = Some z -> fits (fst z) tr -> exists u v, (match snd z with Ok t => t | _ => [] end) = u ++ tr :: v).
  { intros p [qq aa] EN HF. apply nth_error_In in EN. destruct (HK qq aa EN) as (traces & -> & HS). apply in_split. cbn [snd]. eapply sublist_in; eauto. }
  assert (Hij : i < j).
  { destruct (HA i q a E1) as (_ & _ & Q3 & Q4 & _). destruct (HA j q' a' E2) as (_ & _ & R3 & R4 & _).
    destruct (Nat.lt_ge_cases i j) as [K|K]; [exact K|exfalso].
    pose proof (Z.div_mod x 1000000000 ltac:(lia)). pose proof (Z.mod_pos_bound x 1000000000 ltac:(lia)).
    pose proof (Z.div_mod y 1000000000 ltac:(lia)). pose proof (Z.mod_pos_bound y 1000000000 ltac:(lia)).
    assert (q_max q <= y / 1000000000)%Z by lia. assert (y / 1000000000 < q_max q')%Z by lia. lia. }
  destruct (HG i _ E1 F1) as (u1 & v1 & G1). destruct (HG j _ E2 F2) as (u2 & v2 & G2).
  destruct (nth_error_split l i E1) as (l1 & l2 & EL & LL). rewrite EL in E2. rewrite nth_error_app2 in E2 by lia.
  replace (j - length l1) with (S (j - S i)) in E2 by lia. cbn [nth_error] in E2. destruct (nth_error_split _ _ E2) as (l3 & l4 & EL2 & _).
  rewrite EL, EL2. unfold received. rewrite flat_map_app. cbn [flat_map]. rewrite flat_map_app. cbn [flat_map]. rewrite G1, G2.
  exists (flat_map (fun p => match snd p with Ok traces => traces | _ => [] end) l1 ++ u1),
    (v1 ++ flat_map (fun p => match snd p with Ok traces => traces | _ => [] end) l3 ++ u2),
    (v2 ++ flat_map (fun p => match snd p with Ok traces => traces | _ => [] end) l4).
  repeat (rewrite <- !app_assoc; cbn [app]). reflexivity.
Qed.
End Window.

(** The trees of a trace received are among the trees of the report. *)
Lemma trees_in : forall inputs cs tr, trees_of inputs cs -> In tr inputs -> exists ts cs', forest_of tr ts /\ Forall2 compacted_of ts cs' /\ incl cs' cs.
Proof.
  intros inputs cs tr (tss & F & G) HI. revert cs G. induction F as [|i ts inputs tss Hi F IH]; intros cs G; [destruct HI|].
  cbn [concat] in G. apply Forall2_app_inv_l in G. destruct G as (c1 & c2 & G1 & G2 & ->). destruct HI as [->|HI].
  - exists ts, c1. split; [exact Hi|]. split; [exact G1|]. intros x Hx. apply in_or_app. now left.
  - destruct (IH HI c2 G2) as (ts' & cs' & K1 & K2 & K3). exists ts', cs'. split; [exact K1|]. split; [exact K2|]. intros x Hx. apply in_or_app. right. now apply K3.
Qed.

(** ** C112 *)
(** With a server that keeps traces, the report shows all traces that are wanted, and only
    traces of the server; a trace wanted in two half hours is taken twice. *)
Theorem jaeger_finds_all : forall parse_time env now fl report store tr r b m,
    jaeger_talk parse_time env now fl report tr r -> In (said (GCreate (jf_output fl) b) m) tr ->
    (forall q a, In (said (GFind q) a) tr -> exists traces, a = Ok traces /\ sublist_where (fits q) store traces) ->
    exists s e inputs, time_span parse_time now fl s e /\ report inputs b /\
      (forall t x, In t store -> wanted fl s e t x -> In t inputs) /\ incl inputs store /\
      (forall t x y, In t store -> wanted fl s e t x -> wanted fl s e t y -> (x / 1000000000 + 1800 <= y / 1000000000)%Z ->
        exists a b c, inputs = a ++ t :: b ++ t :: c).
Proof.
  intros parse_time env now fl report store tr r b m0 HT HI HK.
  assert (NF : forall l : answers, In (said (GCreate (jf_output fl) b) m0) (finds l) -> False).
  { intros l K. unfold finds in K. apply in_map_iff in K. destruct K as (p & E & _). discriminate (f_equal (@projT1 _ _) E). }
  assert (ND : forall m, said (GDial (env (lit "JAEGER_GRPC_ADDRESS"))) m <> said (GCreate (jf_output fl) b) m0).
  { intros m E. discriminate (f_equal (@projT1 _ _) E). }
  assert (NH : forall x, said GHangUp x <> said (GCreate (jf_output fl) b) m0).
  { intros m E. discriminate (f_equal (@projT1 _ _) E). }
  destruct HT as [r HU HF|m HU|s e l q a x r HU HS HA HE HR HN Er|s e l x end_ r HU HS HA HL HR HE].
  - destruct HI.
  - destruct HI as [K|[]]. now apply ND in K.
  - destruct HI as [K|HI]; [now apply ND in K|]. apply in_app_or in HI. destruct HI as [K|[K|[]]]; [now apply NF in K|now apply NH in K].
  - destruct HI as [K|HI]; [now apply ND in K|]. apply in_app_or in HI. destruct HI as [K|HI]; [now apply NF in K|].
    apply in_app_or in HI. destruct HI as [HI|[K|[]]]; [|now apply NH in K].
    destruct HE as [(_ & -> & _)|(HO & b' & m & HB & -> & _)]; [destruct HI|]. destruct HI as [K|[]].
    assert (b' = b). { pose proof (f_equal (@projT1 _ _) K) as E. cbn in E. injection E as E. exact E. } subst b'.
    assert (KL : keeps store l).
    { intros q a Hq. apply HK. right. apply in_or_app. left. unfold finds. apply in_map_iff. exists (q, a). split; [reflexivity|exact Hq]. }
    exists s, e, (received l). split; [exact HS|]. split; [exact HB|]. split; [|split].
    + intros t y H1 H2. eapply wanted_received; eauto.
    + intros t Ht. destruct (received_kept l store t KL Ht) as [K1 _]. exact K1.
    + intros t y z H1 H2 H3 H4. exact (wanted_twice fl s e l HA HL store t y z KL H1 H2 H3 H4).
Qed.
(** Every tree of a trace received has a row among the slow traces, or there are 100 rows
    there for trees that took as long. *)
Theorem received_has_rows : forall srtt base fl inputs p tr,
    jaeger_shown srtt base fl inputs p -> In tr inputs ->
    exists ts cs, forest_of tr ts /\ Forall2 compacted_of ts cs /\
      forall c, In c cs -> (exists row, In row (jt_slow p) /\ row_for srtt base c row) \/
        (length (jt_slow p) = 100 /\ forall row, In row (jt_slow p) -> exists t, row_for srtt base t row /\ (took c <= took t)%Z).
Proof.
  intros srtt base fl inputs p tr (cs & slow & others & same & T & P1 & P2 & P3 & P4 & (TA & _) & _) HI.
  destruct (trees_in inputs cs tr T HI) as (ts & cs' & K1 & K2 & K3). exists ts, cs'. split; [exact K1|]. split; [exact K2|].
  intros c Hc. apply K3 in Hc. destruct TA as (slow' & PS & HF).
  assert (HC : In c slow \/ In c others) by (apply in_app_or; eapply Permutation_in; [apply Permutation_sym; exact P1|exact Hc]).
  destruct HC as [HC|HC].
  - left. eapply Permutation_in in HC; [|exact PS]. clear - HC HF. induction HF as [|a r l m Hr HF IH]; [destruct HC|]. destruct HC as [->|HC].
    + exists r. split; [now left|exact Hr].
    + destruct (IH HC) as (row & R1 & R2). exists row. split; [now right|exact R2].
  - right. split.
    + assert (EL : length slow' = length (jt_slow p)) by (clear - HF; induction HF; simpl; congruence). rewrite <- EL, <- (Permutation_length PS). apply Permutation_length in P1. rewrite app_length in P1.
      assert (1 <= length others) by (destruct others; [destruct HC|simpl; lia]). lia.
    + intros row HR. assert (K : exists t, In t slow' /\ row_for srtt base t row).
      { clear - HR HF. induction HF as [|a r l m Hr HF IH]; [destruct HR|]. destruct HR as [->|HR]; [exists a; split; [now left|exact Hr]|].
        destruct (IH HR) as (t & R1 & R2). exists t. split; [now right|exact R2]. }
      destruct K as (t & T1 & T2). exists t. split; [exact T2|]. apply P3; [|exact HC]. eapply Permutation_in; [apply Permutation_sym; exact PS|exact T1].
Qed.

(** ** Examples *)
(** A server keeping one trace: a call of five seconds at 0:00, with a part at 0:40, and a
    span whose parent is elsewhere *)
Definition second_ns : Z := 1000000000.
Definition long_trace : list resource_spans :=
  [res "web" [sp "root" 1 0 0 (5 * second_ns) []; sp "late" 2 1 (2400 * second_ns) (2405 * second_ns) [];
              sp "orphan" 5 99 (second_ns) (second_ns + 1000000) []]].
Definition ex_fits (q : Otel.query) : bool :=
  existsb (fun x => Z.leb (q_min q * second_ns) x && Z.leb x (q_max q * second_ns))%bool [0; 2400 * second_ns]%Z.
Definition ex_server : services nat := fun w a =>
  match a return nat * reply a with
  | GDial _ => (w, None)
  | GFind q => (S w, Ok (if ex_fits q then [long_trace] else []))
  | GDescribe _ => (w, Panic)
  | GMetrics _ => (w, Panic)
  | GCreate _ _ => (w, None)
  | GHangUp => (w, None)
  end.
Definition ex_flags : jaeger_flags :=
  {| jf_service := lit "web"; jf_millis := 1000; jf_threshold := 1; jf_count := 500; jf_start := lit "1970-01-01T00:00:00Z"; jf_output := lit "o.html" |}.
Definition ex_env (k : gostring) : gostring := if seqb k (lit "JAEGER_UI_URL") then lit "http://ui" else lit "jaeger:16685".
Definition ex_parse (t : gostring) : outcome Z := if seqb t (lit "1970-01-01T00:00:00Z") then Ok 0%Z else Err (lit "bad").
Definition ex_main (fl : jaeger_flags) (now : Z) : list exchange * nat * outcome unit :=
  jaeger_main ex_server (fun _ _ l => l) ssort (fun l => l) (fun _ l => l) (fun _ l => l) tsort ex_parse ex_env now fl 0.
(** two hours: four questions, the trace taken twice *)
Definition act_kind (x : exchange) : nat :=
  match projT1 x with GDial _ => 0 | GFind _ => 1 | GCreate _ _ => 2 | GHangUp => 3 | _ => 4 end.
Definition written (tr : list exchange) : list (gostring * list (gostring * Z) * list (gostring * Z)) :=
  flat_map (fun x => match projT1 x with
    | GCreate p (BoJaeger d) =>
        let f := map (fun v => (vt_id v, (v_end (t_val (vt_root v)) - v_start (t_val (vt_root v)))%Z)) in
        [(p, f (jd_slow d), f (jd_same_service d))]
    | _ => [] end) tr.
Example jaeger_talks_ex :
  let '(tr, w, r) := ex_main ex_flags (7200 * second_ns) in
  map act_kind tr = [0; 1; 1; 1; 1; 2; 3] /\ w = 4 /\ r = Ok tt /\
  written tr = [(lit "o.html", [(lit "07", 5000%Z); (lit "07", 5000%Z); (lit "07", 1%Z); (lit "07", 1%Z)], [])].
Proof. vm_compute. split; [reflexivity|]. split; [reflexivity|]. split; reflexivity. Qed.
(** the hypotheses *)
Example jaeger_talks_hypotheses : (- 2 ^ 31 <= jf_count ex_flags < 2 ^ 31)%Z /\ (- 9223372036854 <= jf_millis ex_flags <= 9223372036854)%Z /\
  (forall i k : nat, any_order (fun l : list bytes => l)) /\ is_sort start_less ssort.
Proof.
  split; [cbn; lia|]. split; [cbn; lia|]. split; [intros i k l; apply Permutation_refl|]. apply sort_by_ok, start_less_sw.
Qed.
Example unreachable_ex :
  jaeger_main (fun (w : nat) a => match a return nat * reply a with GDial _ => (w, Some (lit "refused")) | GFind _ => (w, Panic) | GDescribe _ => (w, Panic) | GMetrics _ => (w, Panic) | GCreate _ _ => (w, None) | GHangUp => (w, None) end)
    (fun _ _ l => l) ssort (fun l => l) (fun _ l => l) (fun _ l => l) tsort ex_parse ex_env 100 ex_flags 0 =
  ([said (GDial (lit "jaeger:16685")) (Some (lit "refused"))], 0, Err (lit "cannot connect to jaeger:16685: refused")).
Proof. vm_compute. reflexivity. Qed.

Definition found (x : exchange) : option (Otel.query * outcome (list (list resource_spans))) :=
  match x with existT _ a y => match a return reply a -> option (Otel.query * outcome (list (list resource_spans))) with GFind q => fun y => Some (q, y) | _ => fun _ => None end y end.
(** The answers of the server are those of [keeps]. *)
Lemma ex_service : forall rs, In rs long_trace -> service_is rs (lit "web").
Proof.
  intros rs [<-|[]]. unfold service_is. cbn [rs_attrs res]. left. eexists [_], _, []. split; [reflexivity|]. split; [|reflexivity].
  apply Forall_cons; [discriminate|apply Forall_nil].
Qed.
Lemma ex_fits_ok : forall q, q_service q = lit "web" -> q_duration q = (1, 0)%Z -> (q_max q = q_min q + 1800)%Z -> (0 <= q_min q)%Z ->
    (ex_fits q = true <-> fits q long_trace).
Proof.
  intros q H1 H2 H3 H4. unfold ex_fits, second_ns. cbn [existsb]. rewrite orb_false_r, orb_true_iff, !andb_true_iff, !Z.leb_le. split.
  - intros [K|K]; unfold fits; rewrite H1, H2; [exists (sp "root" 1 0 0 (5 * second_ns) [])|exists (sp "late" 2 1 (2400 * second_ns) (2405 * second_ns) [])];
      exists (res "web" [sp "root" 1 0 0 (5 * second_ns) []; sp "late" 2 1 (2400 * second_ns) (2405 * second_ns) []; sp "orphan" 5 99 (second_ns) (second_ns + 1000000) []]);
      (split; [cbn; auto|]); (split; [apply ex_service; now left|]); cbn [r_start r_end sp fst snd]; unfold second_ns; lia.
  - intros (s & rs & K1 & _ & K3 & K4). rewrite H2 in K4. cbn [fst snd] in K4. cbn in K1.
    destruct K1 as [K1|[K1|[K1|[]]]]; injection K1 as <- <-; cbn [r_start r_end sp] in K3, K4; lia.
Qed.
Example jaeger_finds_all_ex : let tr := fst (fst (ex_main ex_flags (7200 * second_ns))) in
  (forall q a, In (said (GFind q) a) tr -> exists traces, a = Ok traces /\ sublist_where (fits q) [long_trace] traces) /\
  exists b, In (said (GCreate (jf_output ex_flags) b) None) tr.
Proof.
  cbv zeta. split.
  - intros q a HI.
    assert (K : forall q0, q_service q0 = lit "web" -> q_duration q0 = (1, 0)%Z -> (q_max q0 = q_min q0 + 1800)%Z -> (0 <= q_min q0)%Z ->
        sublist_where (fits q0) [long_trace] (if ex_fits q0 then [long_trace] else [])).
    { intros q0 K1 K2 K3 K4. pose proof (ex_fits_ok q0 K1 K2 K3 K4) as KK. destruct (ex_fits q0).
      - apply sw_take; [apply KK; reflexivity|apply sw_nil].
      - apply sw_skip; [|apply sw_nil]. intros F. apply KK in F. discriminate. }
    assert (KI : forall (l : answers) (y : exchange), In y (finds l) -> exists p, In p l /\ y = said (GFind (fst p)) (snd p)).
    { intros l y Hy. unfold finds in Hy. apply in_map_iff in Hy. destruct Hy as (p & E & Hp). exists p. split; [exact Hp|exact (eq_sym E)]. }
    set (q0 := fun u => {| q_service := lit "web"; q_min := u; q_max := (u + 1800)%Z; q_num := 500; q_duration := (1, 0)%Z |}).
    set (l := map (fun u => (q0 u, Ok (if ex_fits (q0 u) then [long_trace] else []))) [0; 1800; 3600; 5400]%Z : answers).
    assert (ET : exists b, fst (fst (ex_main ex_flags (7200 * second_ns))) = said (GDial (lit "jaeger:16685")) None :: finds l ++ [said (GCreate (lit "o.html") b) None; said GHangUp None]).
    { eexists. vm_compute. reflexivity. }
    destruct ET as (b & ET). rewrite ET in HI. destruct HI as [E|HI]; [discriminate (f_equal (@projT1 _ _) E)|]. apply in_app_or in HI.
    destruct HI as [HI|HI]; [|destruct HI as [E|[E|[]]]; discriminate (f_equal (@projT1 _ _) E)].
    destruct (KI l _ HI) as ([q1 a1] & Hp & E). cbn [fst snd] in E.
    apply (f_equal found) in E. cbn in E. injection E as -> ->. unfold l in Hp. apply in_map_iff in Hp. destruct Hp as (u & Eu & Hu).
    pose proof (f_equal fst Eu) as E1. pose proof (f_equal snd Eu) as E2. cbn [fst snd] in E1, E2. subst q1 a1.
    eexists. split; [reflexivity|]. apply K; [reflexivity|reflexivity|reflexivity|]. cbn [q_min q0]. clear - Hu. destruct Hu as [<-|[<-|[<-|[<-|[]]]]]; lia.
  - eexists. vm_compute. auto 10.
Qed.
(** The times it is wanted at *)
Example wanted_ex : wanted ex_flags 0 (7200 * second_ns) long_trace 0 /\ wanted ex_flags 0 (7200 * second_ns) long_trace (2400 * second_ns) /\
  (0 / 1000000000 + 1800 <= 2400 * second_ns / 1000000000)%Z.
Proof.
  split; [|split; [|vm_compute; discriminate]].
  - exists (sp "root" 1 0 0 (5 * second_ns) []), (res "web" [sp "root" 1 0 0 (5 * second_ns) []; sp "late" 2 1 (2400 * second_ns) (2405 * second_ns) []; sp "orphan" 5 99 (second_ns) (second_ns + 1000000) []]).
    split; [cbn; auto|]. split; [apply ex_service; now left|]. split; [reflexivity|]. split; [lia|]. split; [vm_compute; reflexivity|]. vm_compute. discriminate.
  - exists (sp "late" 2 1 (2400 * second_ns) (2405 * second_ns) []), (res "web" [sp "root" 1 0 0 (5 * second_ns) []; sp "late" 2 1 (2400 * second_ns) (2405 * second_ns) []; sp "orphan" 5 99 (second_ns) (second_ns + 1000000) []]).
    split; [cbn; auto|]. split; [apply ex_service; now left|]. split; [reflexivity|]. split; [vm_compute; discriminate|]. split; [vm_compute; reflexivity|]. vm_compute. discriminate.
Qed.
(** The report of this run, which opens as [jaeger_page_opens] says *)
Example jaeger_page_opens_ex : exists tr w b inputs,
  ex_main ex_flags (7200 * second_ns) = (tr, w, Ok tt) /\ In (said (GCreate (jf_output ex_flags) b) None) tr /\
  jaeger_report tsort (lit "http://ui") ex_flags inputs b /\ In long_trace inputs /\
  numbers (number_fine JsonProperties.ex_text JsonProperties.ex_value) (gr_map b) /\
  HandOverSpec.host_url (lit "http://ui") (lit "http://ui") /\ is_sort longer (sort_by longer).
Proof.
  pose proof jaeger_finds_all_ex as [HK (b & HB)].
  destruct (ex_main ex_flags (7200 * second_ns)) as [[tr w] r] eqn:E. cbn [fst] in HK, HB.
  destruct (jaeger_talks ex_server (fun _ _ l => l) ssort (fun l => l) (fun _ l => l) (fun _ l => l) tsort ex_parse ex_env (7200 * second_ns) ex_flags) with (w := 0) (tr := tr) (w' := w) (r := r) as [_ HT].
  { cbn; lia. }
  { cbn; lia. }
  { intros i k l; apply Permutation_refl. }
  { apply sort_by_ok, start_less_sw. }
  { intros l; apply Permutation_refl. }
  { intros i l; apply Permutation_refl. }
  { intros i l; apply Permutation_refl. }
  { exact E. }
  destruct (jaeger_finds_all _ _ _ _ _ [long_trace] tr r b None HT HB HK) as (s & e & inputs & HS & HR & HW & _).
  assert (Hn : forall z, (0 <= z)%Z -> number_fine JsonProperties.ex_text JsonProperties.ex_value (inject_Z z)).
  { intros z Hz. unfold number_fine, JsonProperties.ex_text, JsonProperties.ex_value. cbn [inject_Z Qnum].
    split; [apply Dec.dec_of_N_nonempty|]. split.
    - apply Forall_forall. intros x Hx. pose proof (Dec.dec_of_N_digits (Z.to_N z)) as HD.
      rewrite forallb_forall in HD. specialize (HD x Hx). unfold num_char, is_digit in *. rewrite HD. reflexivity.
    - rewrite Dec.dec_of_N_val. rewrite Z2N.id by exact Hz. reflexivity. }
  destruct wanted_ex as [W1 _].
  assert (ES : s = 0%Z /\ e = (7200 * second_ns)%Z).
  { destruct HS as [[[K _]|[_ K]] Ee]; [discriminate K|]. vm_compute in K. injection K as <-. split; [reflexivity|]. rewrite Ee. reflexivity. }
  destruct ES as [-> ->].
  assert (HL : In long_trace inputs) by (apply (HW long_trace 0%Z); [left; reflexivity|exact W1]).
  exists tr, w, b, inputs.
  assert (ER : r = Ok tt) by (vm_compute in E; injection E as _ _ <-; reflexivity).
  split; [rewrite ER; reflexivity|]. split; [exact HB|]. split; [exact HR|]. split; [exact HL|]. split; [|split].
  - clear HR HT HK HW HL. vm_compute in E. injection E as <- _ _.
    repeat (destruct HB as [HB|HB]; [try discriminate (f_equal (@projT1 _ _) HB)|]); [|destruct HB].
    pose proof (f_equal (@projT1 _ _) HB) as EB. cbn [said projT1] in EB. injection EB as <-. clear HB.
    cbn -[inject_Z number_fine]. repeat split; apply Hn; lia.
  - exists (lit "http://"), (lit "ui"). split; [left; reflexivity|]. split; [discriminate|]. split; [|split; [reflexivity|left; reflexivity]].
    apply Forall_forall. intros c Hc. cbn in Hc. cbn. intuition (subst; discriminate).
  - apply sort_by_ok. split; unfold longer; intros *; rewrite ?Z.ltb_lt, ?Z.ltb_ge; lia.
Qed.
(** The page says "traces took more than 1000 ms", of which the server answered with a
    trace that fits; still it shows a row of 1 ms, and the trace in two rows. *)
Theorem slow_threshold_refuted : exists tr w b,
  ex_main ex_flags (7200 * second_ns) = (tr, w, Ok tt) /\ In (said (GCreate (jf_output ex_flags) b) None) tr /\
  (forall q a, In (said (GFind q) a) tr -> exists traces, a = Ok traces /\ sublist_where (fits q) [long_trace] traces) /\
  exists d, b = BoJaeger d /\ jd_slow_ms d = 1000%Z /\
    exists p, jaeger_page (sort_by longer) (sort_by longer) d = Ok p /\ map sr_millis (jt_slow p) = [5000; 5000; 1; 1]%Z.
Proof.
  pose proof jaeger_finds_all_ex as [H _]. destruct (ex_main ex_flags (7200 * second_ns)) as [[tr w] r] eqn:E. cbn [fst] in H.
  exists tr, w. vm_compute in E. injection E as <- <- <-. eexists. split; [reflexivity|]. split; [do 5 right; left; reflexivity|]. split; [exact H|].
  eexists. split; [reflexivity|]. split; [reflexivity|]. eexists. split; [vm_compute; reflexivity|]. reflexivity.
Qed.
Print Assumptions jaeger_finds_all.
Print Assumptions received_has_rows.
Print Assumptions slow_threshold_refuted.
(** The count is cut to 32 bits: with 2^32 the server is asked for no trace at all. *)
Theorem count_asked_refuted : exists fl tr w q a, ex_main fl (7200 * second_ns) = (tr, w, Ok tt) /\
  jf_count fl = (2 ^ 32)%Z /\ In (said (GFind q) a) tr /\ q_num q = 0%Z.
Proof.
  eexists {| jf_service := lit "web"; jf_millis := 1000; jf_threshold := 1; jf_count := 2 ^ 32; jf_start := lit "1970-01-01T00:00:00Z"; jf_output := lit "o.html" |}, _, _, _, _.
  split; [vm_compute; reflexivity|]. split; [reflexivity|]. split; [right; left; reflexivity|]. reflexivity.
Qed.
Print Assumptions count_asked_refuted.
