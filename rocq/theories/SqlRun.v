(** A server for the concrete cases: it evaluates the query over the relations, and fails
    where the comparison of texts does not sort.  Not part of any statement.
    None of the definitions in this file has lines in /repo of its own. *)
From Coq Require Import String List NArith ZArith Bool Lia Arith Sorting Permutation.
From Verif Require Import Base IndexText IndexBuild Hasura PgArray SqlServer Catalog.
Import ListNotations.

Section Sort.
Context {A : Type} (less : A -> A -> bool).
Fixpoint insert_by (x : A) (l : list A) : list A :=
  match l with [] => [x] | y :: l' => if less y x then y :: insert_by x l' else x :: y :: l' end.
Definition sort_by (l : list A) : list A := fold_right insert_by [] l.
Lemma insert_by_perm : forall x l, Permutation (insert_by x l) (x :: l).
Proof.
  intros x. induction l as [|y l IH]; cbn [insert_by]; [apply Permutation_refl|]. destruct (less y x); [|apply Permutation_refl].
  eapply perm_trans; [apply perm_skip, IH|apply perm_swap].
Qed.
Lemma sort_by_perm : forall l, Permutation (sort_by l) l.
Proof.
  induction l as [|x l IH]; [constructor|]. cbn [sort_by fold_right]. eapply perm_trans; [apply insert_by_perm|]. now apply perm_skip.
Qed.
Fixpoint is_sorted (l : list A) : bool :=
  match l with [] => true | x :: l' => forallb (fun y => negb (less y x)) l' && is_sorted l' end.
Lemma is_sorted_ok : forall l, is_sorted l = true -> sorted_by less l.
Proof.
  induction l as [|x l IH]; intros H; constructor; cbn [is_sorted] in H; apply andb_true_iff in H; destruct H as [H1 H2]; auto.
  rewrite Forall_forall. rewrite forallb_forall in H1. intros y HY. apply negb_true_iff. auto.
Qed.
End Sort.
Definition run (d : database) (args : list gostring) (q : query) : option (list row) :=
  match from_envs d args q with
  | None => None
  | Some envs =>
      match filter_opt (holds d args (q_where q)) envs with
      | None => None
      | Some kept =>
          let ordered := sort_by (before d args (q_order q)) kept in
          if is_sorted (before d args (q_order q)) ordered then map_opt (project d args q) ordered else None
      end
  end.
Lemma run_answers : forall d args q rows, run d args q = Some rows -> answers d args q rows.
Proof.
  intros d args q rows H. unfold run in H. destruct (from_envs d args q) as [envs|] eqn:E1; [|discriminate].
  destruct (filter_opt _ envs) as [kept|] eqn:E2; [|discriminate]. destruct (is_sorted _ _) eqn:E3; [|discriminate].
  exists envs, kept, (sort_by (before d args (q_order q)) kept). split; [exact E1|]. split; [exact E2|].
  split; [apply sort_by_perm|]. split; [now apply is_sorted_ok|exact H].
Qed.
Definition run_server (d : database) (rq : gostring * list gostring) : outcome (list row) :=
  match parse_sql (fst rq) with
  | None => Err (lit "syntax error")
  | Some q => match run d (snd rq) q with Some rows => Ok rows | None => Err (lit "error") end
  end.
Lemma run_server_answers : forall d, answers_from d (run_server d).
Proof.
  intros d text args rows q H HQ. unfold run_server in H. cbn [fst snd] in H. rewrite HQ in H.
  destruct (run d args q) as [r|] eqn:E; [|discriminate]. injection H as <-. now apply run_answers.
Qed.
Definition run_hasura (d : database) (rq : run_sql) : outcome (list (list gostring)) :=
  match parse_sql (rs_sql rq) with
  | None => Err (lit "syntax error")
  | Some q =>
      match run d [] q with
      | Some rows => Ok (map snd (q_items q) :: map (map (fun c => cell_text (snd c))) rows)
      | None => Err (lit "error")
      end
  end.
Lemma run_hasura_answers : forall d, hasura_answers_from d (run_hasura d).
Proof.
  intros d rq rows q H HQ. unfold run_hasura in H. rewrite HQ in H.
  destruct (run d [] q) as [r|] eqn:E; [|discriminate]. injection H as <-. exists r, (map snd (q_items q)).
  split; [now apply run_answers|reflexivity].
Qed.

(** Texts by their code points *)
Fixpoint bytewise (a b : gostring) : comparison :=
  match a, b with
  | [], [] => Eq
  | [], _ => Lt
  | _, [] => Gt
  | x :: a', y :: b' => match N.compare x y with Eq => bytewise a' b' | c => c end
  end.
Lemma bytewise_iff : forall a b, bytewise a b = Eq <-> a = b.
Proof.
  induction a as [|x a IH]; intros [|y b]; cbn [bytewise]; try (split; [discriminate|discriminate]); [tauto|].
  destruct (N.compare_spec x y) as [->|H|H]; [rewrite IH; split; congruence| |]; (split; [discriminate|]); intros E; injection E as -> _; lia.
Qed.
Lemma bytewise_opp : forall a b, bytewise b a = CompOpp (bytewise a b).
Proof.
  induction a as [|x a IH]; intros [|y b]; cbn [bytewise]; try reflexivity.
  rewrite (N.compare_antisym x y). destruct (N.compare x y); cbn [CompOpp]; auto.
Qed.
