From Coq Require Import String List NArith Bool Lia Arith Sorting.
From Verif Require Import Base IndexText IndexBuild IndexBuildProofs TableFields TableFieldsProofs Existing ExistingSpec.
Import ListNotations.

Section U.
  Context {A : Type} (eqb : A -> A -> bool) (eqb_eq : forall a b, eqb a b = true <-> a = b).
  Lemma existsb_eqb : forall x l, existsb (eqb x) l = true <-> In x l.
  Proof.
    intros x l. rewrite existsb_exists. split.
    - intros (y & Hy & E). apply eqb_eq in E. congruence.
    - intros H. exists x. split; auto. now apply eqb_eq.
  Qed.
  Lemma uniq_go_In : forall l seen x, In x (uniq_go eqb seen l) <-> In x l /\ ~ In x seen.
  Proof.
    induction l as [|y l IH]; simpl; intros seen x; [tauto|].
    destruct (existsb (eqb y) seen) eqn:E.
    - rewrite IH. apply existsb_eqb in E. split; [tauto|]. intros [[->|H] Hn]; tauto.
    - assert (Hn : ~ In y seen) by (intros H; apply existsb_eqb in H; congruence).
      simpl. rewrite IH. simpl. split.
      + intros [->|[H1 H2]]; [split; auto|]. split; auto. 
      + intros [[->|H1] H2]; auto. destruct (eqb y x) eqn:E2.
        * apply eqb_eq in E2. auto.
        * right. split; auto. intros [->|H3]; auto. assert (eqb x x = true) by now apply eqb_eq. congruence.
  Qed.
  Lemma uniq_go_NoDup : forall l seen, NoDup (uniq_go eqb seen l).
  Proof.
    induction l as [|y l IH]; simpl; intros seen; [constructor|].
    destruct (existsb (eqb y) seen); auto. constructor; auto. rewrite uniq_go_In. simpl. tauto.
  Qed.
  Lemma uniq_In : forall l x, In x (uniq eqb l) <-> In x l.
  Proof. intros. unfold uniq. rewrite uniq_go_In. simpl. tauto. Qed.
  Lemma uniq_NoDup : forall l, NoDup (uniq eqb l).
  Proof. intros. apply uniq_go_NoDup. Qed.
  Lemma uniq_go_id : forall l seen, NoDup l -> (forall x, In x l -> ~ In x seen) -> uniq_go eqb seen l = l.
  Proof.
    induction l as [|y l IH]; simpl; intros seen HN HS; auto. inversion HN; subst.
    destruct (existsb (eqb y) seen) eqn:E.
    - apply existsb_eqb in E. elim (HS y); auto.
    - f_equal. apply IH; auto. intros x Hx [->|H3]; auto. eapply HS; eauto.
  Qed.
  Lemma uniq_id : forall l, NoDup l -> uniq eqb l = l.
  Proof. intros. apply uniq_go_id; simpl; auto. Qed.
End U.

Lemma group_get : forall l m t, mget (fold_left (fun m i => mset m (it_table i) (match mget m (it_table i) with Some g => g ++ [i] | None => [i] end)) l m) t =
    match filter (fun i => seqb (it_table i) t) l with
    | [] => mget m t
    | f => Some (match mget m t with Some g => g ++ f | None => f end)
    end.
Proof.
  induction l as [|i l IH]; simpl; intros m t; auto. rewrite IH. rewrite mget_mset. rewrite seqb_sym.
  destruct (seqb_spec (it_table i) t) as [<-|Hn]; auto.
  destruct (filter (fun i0 => seqb (it_table i0) (it_table i)) l) eqn:E;
    destruct (mget m (it_table i)); simpl; rewrite <- ?app_assoc; reflexivity.
Qed.
Lemma group_by_table_get : forall l t, mget (group_by_table l) t =
    match filter (fun i => seqb (it_table i) t) l with [] => None | f => Some f end.
Proof. intros. unfold group_by_table. rewrite group_get. reflexivity. Qed.

Lemma equal_fold_iff : forall fold a b, equal_fold fold a b = true <-> same_name fold a b.
Proof.
  induction a as [|x a IH]; intros [|y b]; simpl.
  - split; constructor.
  - split; [discriminate|]. intros H. inversion H.
  - split; [discriminate|]. intros H. inversion H.
  - rewrite andb_true_iff, N.eqb_eq, IH. split; [intros [H1 H2]; constructor; auto|]. intros H. inversion H; auto.
Qed.
Lemma same_cols_iff : forall fold a b, same_cols fold a b = true <-> Forall2 (same_name fold) a b.
Proof.
  induction a as [|x a IH]; intros [|y b]; simpl.
  - split; constructor.
  - split; [discriminate|]. intros H. inversion H.
  - split; [discriminate|]. intros H. inversion H.
  - rewrite andb_true_iff, equal_fold_iff, IH. split; [intros [H1 H2]; constructor; auto|]. intros H. inversion H; auto.
Qed.
Lemma has_same_iff : forall fold it ex, has_same_idx_columns fold it ex = true <-> Forall2 (same_name fold) (it_cols it) (it_cols ex).
Proof.
  intros. unfold has_same_idx_columns. destruct (Nat.eqb_spec (length (it_cols ex)) (length (it_cols it))) as [E|E].
  - apply same_cols_iff.
  - split; [discriminate|]. intros H. elim E. symmetry. clear E. induction H; simpl; congruence.
Qed.

Lemma kept_filter : forall A (P : A -> Prop) (f : A -> bool) l, (forall x, f x = true <-> P x) -> kept P l (filter f l).
Proof.
  intros A P f l H. induction l as [|x l IH]; simpl; [constructor|].
  destruct (f x) eqn:E; constructor; auto.
  - now apply H.
  - rewrite <- H. congruence.
Qed.
Lemma kept_map : forall A B (P : B -> Prop) (g : A -> B) l sub, kept (fun x => P (g x)) l sub -> kept P (map g l) (map g sub).
Proof. intros A B P g l sub H. induction H; simpl; constructor; auto. Qed.
Lemma kept_In : forall A (P : A -> Prop) l sub, kept P l sub -> forall x, In x sub <-> In x l /\ P x.
Proof.
  intros A P l sub H. induction H; simpl; intros y; [tauto| |].
  - rewrite IHkept. split; [intros [<-|[? ?]]; auto|]. intros [[<-|?] ?]; auto.
  - rewrite IHkept. split; [intros [? ?]; auto|]. intros [[<-|?] ?]; tauto.
Qed.
Lemma kept_unique : forall A (P : A -> Prop) l s1 s2, kept P l s1 -> kept P l s2 -> s1 = s2.
Proof. intros A P l s1 s2 H. revert s2. induction H; intros s2 H2; inversion H2; subst; try tauto; f_equal; auto. Qed.

Lemma remove_matched_spec : forall fold deref infos its,
    kept (fun p => ~ exists ex, In ex infos /\ covered fold (deref p) ex) its (remove_matched fold deref infos its).
Proof.
  intros. unfold remove_matched. apply kept_filter. intros p. rewrite group_by_table_get.
  set (F := filter (fun i => seqb (it_table i) (it_table (deref p))) infos).
  assert (HF : forall i, In i F <-> In i infos /\ it_table i = it_table (deref p)).
  { intros i. unfold F. rewrite filter_In, seqb_eq. tauto. }
  assert (HX : existsb (fun id => has_same_idx_columns fold (deref p) id) F = true <-> exists ex, In ex infos /\ covered fold (deref p) ex).
  { rewrite existsb_exists. split.
    - intros (i & Hi & HS). apply HF in Hi. apply has_same_iff in HS. exists i. unfold covered. tauto.
    - intros (i & Hi & Ht & HS). exists i. rewrite HF, has_same_iff. tauto. }
  destruct F as [|i F'] eqn:EF.
  - split; auto. intros _ He. apply HX in He. discriminate.
  - rewrite negb_true_iff. rewrite <- HX. destruct (existsb _ _); split; congruence.
Qed.

(** ** Index rows *)
Lemma append_last_snoc : forall infos i c, append_last (infos ++ [i]) c = Ok (infos ++ [mk_it (it_table i) (it_cols i ++ [c])]).
Proof.
  induction infos as [|j infos IH]; intros i c; simpl; auto.
  rewrite IH. destruct (infos ++ [i]) eqn:E; [destruct infos; discriminate|]. reflexivity.
Qed.

(** A maximal run of rows with the same key, then the rest. *)
Fixpoint groups (rows : list flat_row) : list ((gostring * gostring) * list gostring) :=
  match rows with
  | [] => []
  | r :: rows' =>
      match groups rows' with
      | (k, cs) :: gs => if (seqb (fr_table r) (fst k) && seqb (fr_index r) (snd k))%bool
                         then (row_key r, fr_column r :: cs) :: gs
                         else (row_key r, [fr_column r]) :: (k, cs) :: gs
      | [] => [(row_key r, [fr_column r])]
      end
  end.
Definition target_of (g : (gostring * gostring) * list gostring) : index_target := mk_it (fst (fst g)) (snd g).

Lemma key_eqb : forall (r : flat_row) k, (seqb (fr_table r) (fst k) && seqb (fr_index r) (snd k))%bool = true <-> row_key r = k.
Proof.
  intros r [t i]. simpl. rewrite andb_true_iff, !seqb_eq. unfold row_key. split; [intros [-> ->]; auto|]. intros H. inversion H. auto.
Qed.
Lemma groups_head : forall rows, match groups rows with [] => rows = [] | g :: _ => exists r rest, rows = r :: rest /\ fst g = row_key r end.
Proof.
  destruct rows as [|r rows]; simpl; auto. destruct (groups rows) as [|[k cs] gs]; simpl; eauto.
  destruct (_ && _)%bool; simpl; eauto.
Qed.
Lemma groups_flat : forall rows, concat (map index_rows (groups rows)) = rows.
Proof.
  induction rows as [|r rows IH]; simpl; auto. destruct r as [t i c]. simpl.
  destruct (groups rows) as [|[k cs] gs] eqn:E; simpl in *.
  - subst. reflexivity.
  - destruct (_ && _)%bool eqn:EK; simpl.
    + apply andb_true_iff in EK. destruct EK as [E1 E2]. apply seqb_eq in E1, E2.
      unfold index_rows in *. simpl in *. rewrite <- IH. destruct k; simpl in *; subst. reflexivity.
    + unfold index_rows in *. simpl in *. now rewrite <- IH.
Qed.
Lemma groups_nonempty : forall rows, Forall (fun g => snd g <> []) (groups rows).
Proof.
  induction rows as [|r rows IH]; simpl; [constructor|].
  destruct (groups rows) as [|[k cs] gs]; [repeat constructor; discriminate|].
  inversion IH; subst. destruct (_ && _)%bool; repeat (constructor; simpl; auto); discriminate.
Qed.

Lemma to_index_info_from_spec : forall rows t i infos cs, 
    to_index_info_from t i (infos ++ [mk_it t cs]) rows =
    Ok (infos ++ match groups rows with
                 | [] => [mk_it t cs]
                 | (k, cs') :: gs =>
                     if (seqb t (fst k) && seqb i (snd k))%bool
                     then mk_it t (cs ++ cs') :: map target_of gs
                     else mk_it t cs :: mk_it (fst k) cs' :: map target_of gs
                 end).
Proof.
  induction rows as [|r rows IH]; intros t i infos cs; simpl; auto.
  destruct (seqb t (fr_table r) && seqb i (fr_index r))%bool eqn:EK.
  - apply andb_true_iff in EK. destruct EK as [E1 E2]. apply seqb_eq in E1, E2.
    rewrite append_last_snoc. simpl. rewrite E1. rewrite IH.
    destruct (groups rows) as [|[k cs'] gs] eqn:EG; simpl.
    + rewrite E2, !seqb_refl. reflexivity.
    + destruct (seqb (fr_table r) (fst k) && seqb (fr_index r) (snd k))%bool eqn:E3; simpl.
      * rewrite E2, !seqb_refl. simpl. now rewrite <- app_assoc.
      * rewrite E2, !seqb_refl. simpl. reflexivity.
  - simpl. rewrite IH.
    destruct (groups rows) as [|[k cs'] gs] eqn:EG; simpl.
    + rewrite EK. now rewrite <- app_assoc.
    + destruct (seqb (fr_table r) (fst k) && seqb (fr_index r) (snd k))%bool eqn:E3; simpl; rewrite EK; now rewrite <- app_assoc.
Qed.
Lemma to_index_info_groups : forall rows, (forall r, hd_error rows = Some r -> row_key r <> ([], [])) ->
    to_index_info rows = Ok (map target_of (groups rows)).
Proof.
  intros [|r rows] H; [reflexivity|]. unfold to_index_info. simpl.
  destruct (seqb [] (fr_table r) && seqb [] (fr_index r))%bool eqn:E.
  - exfalso. apply andb_true_iff in E. destruct E as [E1 E2]. apply seqb_eq in E1, E2.
    apply (H r eq_refl). unfold row_key. congruence.
  - simpl. change ([mk_it (fr_table r) [fr_column r]]) with ([] ++ [mk_it (fr_table r) [fr_column r]]).
    rewrite to_index_info_from_spec. simpl.
    destruct (groups rows) as [|[k cs'] gs]; [reflexivity|].
    clear E; destruct (_ && _)%bool; reflexivity.
Qed.

Lemma key_lt_trans : forall a b c, key_lt a b -> key_lt b c -> key_lt a c.
Proof.
  intros a b c [H1|[H1 H2]] [H3|[H3 H4]].
  - left. eapply sltb_trans; eauto.
  - left. congruence.
  - left. congruence.
  - right. split; [congruence|]. eapply sltb_trans; eauto.
Qed.
Lemma key_lt_irrefl : forall a, ~ key_lt a a.
Proof. intros a [H|[_ H]]; rewrite sltb_irrefl in H; discriminate. Qed.
Lemma key_lt_total : forall a b, ~ key_lt a b -> ~ key_lt b a -> a = b.
Proof.
  intros [a1 a2] [b1 b2] H1 H2. unfold key_lt in *. simpl in *.
  assert (E1 : a1 = b1). { apply sltb_total; [destruct (sltb a1 b1) eqn:E|destruct (sltb b1 a1) eqn:E]; auto; tauto. }
  subst. f_equal. apply sltb_total; [destruct (sltb a2 b2) eqn:E|destruct (sltb b2 a2) eqn:E]; auto; tauto.
Qed.
Lemma groups_keys_In : forall rows k, In k (map fst (groups rows)) -> exists r, In r rows /\ row_key r = k.
Proof.
  induction rows as [|r rows IH]; simpl; intros k H; [destruct H|].
  destruct (groups rows) as [|[k' cs] gs]; simpl in *.
  - destruct H as [<-|[]]; eauto.
  - destruct (_ && _)%bool; simpl in H.
    + destruct H as [<-|H]; eauto. destruct (IH k) as (r' & ? & ?); eauto.
    + destruct H as [<-|H]; eauto. destruct (IH k) as (r' & ? & ?); eauto.
Qed.
Lemma groups_NoDup : forall rows, rows_sorted rows -> NoDup (map fst (groups rows)).
Proof.
  intros rows H. induction H as [|r rows HS IH HF]; simpl; [constructor|].
  pose proof (groups_head rows) as HH.
  destruct (groups rows) as [|[k cs] gs] eqn:E; simpl in *; [repeat constructor; auto|].
  destruct HH as (r0 & rest & -> & Hk). subst k.
  destruct (_ && _)%bool eqn:EK; simpl.
  - apply key_eqb in EK. rewrite EK. exact IH.
  - constructor; auto. intros HI.
    assert (HI2 : In (row_key r) (map fst (groups (r0 :: rest)))) by (rewrite E; exact HI).
    assert (Hne : row_key r <> row_key r0). { intros HX. apply key_eqb in HX. simpl in EK, HX. congruence. }
    assert (Hlt : key_lt (row_key r) (row_key r0)).
    { inversion HF; subst. assert (HD : key_lt (row_key r) (row_key r0) \/ ~ key_lt (row_key r) (row_key r0)).
      { unfold key_lt. simpl. destruct (sltb (fr_table r) (fr_table r0)); auto. destruct (runes_eq_dec (fr_table r) (fr_table r0)).
        - destruct (sltb (fr_index r) (fr_index r0)); auto. right. intros [?|[? ?]]; discriminate.
        - right. intros [?|[? ?]]; [discriminate|contradiction]. }
      destruct HD as [HD|HD]; auto. elim Hne. now apply key_lt_total. }
    apply groups_keys_In in HI2. destruct HI2 as (r' & Hr' & Ek).
    destruct Hr' as [<-|Hr']; [congruence|].
    inversion HS as [|? ? HS' HF']; subst. rewrite Forall_forall in HF'. apply (HF' r' Hr'). rewrite Ek. exact Hlt.
Qed.

(** ** Schemas *)
Lemma add_cols_get : forall rows m t, mget (fold_left add_col rows m) t =
    match rows_of t rows with
    | [] => mget m t
    | rs => let ts := match mget m t with Some ts => ts | None => mk_ts t [] [] end in
            Some (mk_ts (ts_name ts) (ts_cols ts ++ map (fun r => snd (fst r)) rs)
                        (ts_pks ts ++ map (fun r => snd (fst r)) (filter (fun r => snd r) rs)))
    end.
Proof.
  induction rows as [|[[t0 c] pk] rows IH]; simpl; intros m t; auto. rewrite IH. unfold add_col. rewrite mget_mset.
  rewrite (seqb_sym t t0). destruct (seqb_spec t0 t) as [<-|Hn]; auto.
  unfold rows_of. destruct (filter _ rows) as [|x rs] eqn:E; simpl.
  - destruct pk; simpl; rewrite ?app_nil_r; reflexivity.
  - destruct pk; simpl; rewrite <- ?app_assoc; reflexivity.
Qed.
Lemma create_spec : forall tables rows, create_table_schemas tables rows =
    map (fun t => match rows_of t rows with [] => None | _ => Some (schema_from t rows) end) tables.
Proof.
  intros. unfold create_table_schemas. apply map_ext. intros t. rewrite add_cols_get. simpl. unfold schema_from.
  destruct (rows_of t rows); reflexivity.
Qed.
Lemma check_spec : forall tables rows,
    check_schemas tables (create_table_schemas tables rows) =
    match find (fun t => match rows_of t rows with [] => true | _ => false end) tables with
    | Some t => Err (view_message t)
    | None => Ok (map (fun t => schema_from t rows) tables)
    end.
Proof.
  intros. rewrite create_spec. induction tables as [|t tables IH]; simpl; auto.
  destruct (rows_of t rows) eqn:E; simpl; auto.
  rewrite IH. destruct (find _ tables); reflexivity.
Qed.
