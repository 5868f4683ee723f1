(** C34-C37: the library. *)
From Coq Require Import List ZArith Bool Arith Lia Permutation Sorted.
From Verif Require Import Base IndexBuild LimitedHeap LimitedHeapSpec LimitedHeapProofs Lib LibSpec LibProofs.
Import ListNotations.

(** ** C34 *)
Theorem heap_keeps_greatest : forall (A : Type) (less : A -> A -> bool) limit xs, strict_weak less ->
    exists kept dropped, push_and_pop less limit xs = Ok (kept, []) /\ Permutation (kept ++ dropped) xs /\
      Z.of_nat (length kept) = Z.min (Z.max 0 limit) (Z.of_nat (length xs)) /\ sorted_by less kept /\
      forall k d, In k kept -> In d dropped -> less k d = false.
Proof. intros A less limit xs H. now apply push_and_pop_spec. Qed.
Example heap_less : strict_weak Nat.ltb.
Proof.
  split; intros; repeat match goal with
    | H : Nat.ltb _ _ = true |- _ => apply Nat.ltb_lt in H
    | H : Nat.ltb _ _ = false |- _ => apply Nat.ltb_ge in H
    end; apply Nat.ltb_ge; lia.
Qed.
Example heap_run : push_and_pop Nat.ltb 5 [1; 5; 3; 2; 4; 6; 3] = Ok ([3; 3; 4; 5; 6], []).
Proof. reflexivity. Qed.
(** Without an order nothing is guaranteed. *)
Example heap_no_order : push_and_pop (fun _ _ => true) 2 [1; 2; 3] <> push_and_pop Nat.ltb 2 [1; 2; 3].
Proof. vm_compute. discriminate. Qed.

(** ** C35 *)
Theorem uniq_keeps_first : forall (T U : Type) (eq_dec : forall a b : U, {a = b} + {a <> b}) (fn : T -> U) vals,
    first_of_each_key fn vals (uniq_by eq_dec fn vals).
Proof. intros. apply uniq_by_spec. Qed.
Theorem uniq_determined : forall (T U : Type) (fn : T -> U) vals a b,
    first_of_each_key fn vals a -> first_of_each_key fn vals b -> a = b.
Proof. intros T U fn vals a b. apply first_of_each_key_fun. Qed.
Example uniq_run : uniq_by Nat.eq_dec (fun x => x / 10) [31; 12; 35; 18; 2; 19; 30] = [31; 12; 2].
Proof. reflexivity. Qed.

(** ** C36 *)
Theorem time_ranges_tile : forall start end_ interval, (0 < interval)%Z ->
    exists fuel l, generate_time_ranges fuel start end_ interval = Some l /\
      (forall fuel', fuel <= fuel' -> generate_time_ranges fuel' start end_ interval = Some l) /\
      (forall k t, nth_error l k = Some t <-> t = (start + Z.of_nat k * interval)%Z /\ (t < end_)%Z) /\
      (forall x, (start <= x < end_)%Z -> exists! k, exists t, nth_error l k = Some t /\ (t <= x < t + interval)%Z).
Proof.
  intros s e i Hi.
  destruct (ranges_spec (Z.to_nat (e - s)) s e i Hi) as (l & E & HN).
  { destruct (Z.le_gt_cases (e - s) 0); nia. }
  assert (HI : forall k t, nth_error l k = Some t <-> t = (s + Z.of_nat k * i)%Z /\ (t < e)%Z).
  { intros k t. rewrite HN. destruct (Z.ltb_spec (s + Z.of_nat k * i) e); split.
    - intros K. injection K as <-. auto.
    - intros [-> _]. reflexivity.
    - discriminate.
    - intros [-> K]. lia. }
  exists (Z.to_nat (e - s)), l. split; [exact E|]. split; [intros; eapply ranges_more_fuel; eauto|]. split; [exact HI|].
  intros x Hx. assert (Hd : (0 <= (x - s) / i)%Z) by (apply Z.div_pos; lia).
  pose proof (Z.div_mod (x - s) i ltac:(lia)) as HD. pose proof (Z.mod_pos_bound (x - s) i Hi) as HM.
  exists (Z.to_nat ((x - s) / i)). split.
  - exists (s + (x - s) / i * i)%Z. split; [apply HI; rewrite Z2Nat.id by auto; split; [reflexivity|nia]|nia].
  - intros k (t & Ht & Hb). apply HI in Ht. destruct Ht as [-> Ht].
    apply Nat2Z.inj. rewrite Z2Nat.id by auto. symmetry. apply Z.div_unique with (x - s - Z.of_nat k * i)%Z; lia.
Qed.
(** The loop never ends for an interval that is not positive. *)
Theorem time_ranges_diverge : forall fuel start end_ interval, (interval <= 0)%Z -> (start < end_)%Z ->
    generate_time_ranges fuel start end_ interval = None.
Proof. exact ranges_diverge. Qed.
Theorem time_ranges_empty : forall fuel start end_ interval, (end_ <= start)%Z ->
    generate_time_ranges fuel start end_ interval = Some [].
Proof. intros [|f] s e i H; cbn [generate_time_ranges]; destruct (Z.ltb_spec s e); auto; lia. Qed.
Example time_ranges_run : generate_time_ranges 9 10 100 40 = Some [10; 50; 90]%Z.
Proof. reflexivity. Qed.

(** ** C37 *)

(** Whatever a program does with any number of sets, each holds exactly the values
    it should, once. *)
Theorem sets_are_sets : forall (T : Type) (eq_dec : forall a b : T, {a = b} + {a <> b}) ords ops,
    (forall n l, Permutation (ords n l) l) -> on_existing (rev ops) ->
    exists store, set_run eq_dec ords ops [] = Ok store /\ length store = made (rev ops) /\
      forall i s ord, nth_error store i = Some s -> Permutation (ord s) s ->
        (forall v, contains eq_dec v s = true <-> member (rev ops) i v) /\
        NoDup (values ord s) /\ (forall v, In v (values ord s) <-> member (rev ops) i v) /\
        count s = length (values ord s).
Proof.
  intros T eq_dec ords ops Ho He. destruct (set_run_spec eq_dec ords ops [] [] Ho) as (st & E & L & A).
  - now rewrite app_nil_r.
  - split; auto. intros j s H. destruct j; discriminate.
  - rewrite app_nil_r in *. exists st. split; auto. split; auto. intros i s ord Hi Hp. destruct (A i s Hi) as [D I].
    split; [|split; [|split]].
    + intros v. rewrite contains_iff. apply I.
    + unfold values. eapply Permutation_NoDup; [apply Permutation_sym, Hp|exact D].
    + intros v. rewrite <- I. unfold values. split; intros K; eapply Permutation_in; try exact K; auto. now apply Permutation_sym.
    + unfold count, values. now rewrite (Permutation_length Hp).
Qed.
Example sets_run : exists store, set_run Nat.eq_dec (fun _ l => rev l)
    [ONewS [1; 2; 1]; ONew; OAdd 1 7; OMerge 1 0; ODelete 0 1; OMerge 0 0; OAdd 1 2] [] = Ok store /\
  nth_error store 0 = Some [2] /\ nth_error store 1 = Some [7; 2; 1].
Proof. eexists. split; [reflexivity|split; reflexivity]. Qed.
Example sets_run_existing : on_existing (rev [ONewS [1; 2; 1]; ONew; OAdd 1 7; OMerge 1 0; ODelete 0 1; OMerge 0 0; OAdd 1 2]).
Proof. simpl. lia. Qed.

(** What is pushed is what is popped and what is on top, whatever balanced
    operations come between; the rest of the stack is as before. *)
Theorem stack_lifo : forall (T : Type) (s : list (option T)) v w, balanced w ->
    (exists outs, stack_run (SPush v :: w ++ [SPop]) s = (outs ++ [OutVal v], s)) /\
    (exists outs s', stack_run (SPush v :: w ++ [STop]) s = (outs ++ [OutVal v], s')) /\
    (exists outs s', stack_run (SPush v :: w ++ [SSize]) s = (outs ++ [OutSize (S (length s))], s')).
Proof.
  intros T s v w Hw. cbn [stack_run stack_step].
  assert (HB := balanced_run w Hw (stack_push v s)). rewrite !stack_run_app.
  destruct (stack_run w (stack_push v s)) as [o s1]. simpl in HB. subst s1. cbn [stack_run stack_step].
  split; [|split].
  - rewrite pop_push. exists (OutNone :: o). reflexivity.
  - rewrite top_push. exists (OutNone :: o). eexists. reflexivity.
  - exists (OutNone :: o), (stack_push v s). unfold stack_size, stack_push. rewrite app_length. simpl.
    now rewrite Nat.add_1_r.
Qed.
Theorem stack_empty : forall T : Type,
    stack_pop (@nil (option T)) = (None, []) /\ stack_top (@nil (option T)) = None /\ stack_size (@nil (option T)) = 0.
Proof. intros T. repeat split. Qed.
Example stack_ex : balanced [SPush (Some 3); STop; SPop; SSize].
Proof. apply (bal_push (Some 3) [STop] [SSize]); repeat constructor. Qed.

Print Assumptions heap_keeps_greatest.
Print Assumptions uniq_keeps_first.
Print Assumptions uniq_determined.
Print Assumptions time_ranges_tile.
Print Assumptions time_ranges_diverge.
Print Assumptions time_ranges_empty.
Print Assumptions sets_are_sets.
Print Assumptions stack_lifo.
Print Assumptions stack_empty.
