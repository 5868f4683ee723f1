(** Proofs about the data of a report on both sides. *)
From Coq Require Import String List NArith ZArith QArith Bool Lia Arith Permutation Lqa.
From Verif Require Import Base Json ExplainTree ExplainTreeProofs IndexText Examiner IndexBuild CommandText PlanView Otel Pi LoadCharts TraceDiagram HandOver HandOverSpec JsonProofs.
From Verif Require LoadChartsProofs.
Import ListNotations.
Local Open Scope nat_scope.

(** ** Reading what was written *)
Lemma field_hit {A} (f : jv -> outcome A) k l v : member k l = Some v -> field f k (JObj l) = f v.
Proof. intros H. unfold field, get. rewrite H. reflexivity. Qed.
Lemma get_hit k l v : member k l = Some v -> get k (JObj l) = Ok v.
Proof. intros H. unfold get. rewrite H. reflexivity. Qed.
Lemma field_miss {A} (f : jv -> outcome A) k l : member k l = None -> field f k (JObj l) = f JNull.
Proof. intros H. unfold field, get. rewrite H. reflexivity. Qed.
Ltac hit := erewrite field_hit by reflexivity; cbv beta.
Ltac bnd := cbn [obind].

Lemma all_ok_map {A B C} (f : B -> outcome C) (g : A -> B) (h : A -> C) l :
  (forall x, In x l -> f (g x) = Ok (h x)) -> all_ok (map f (map g l)) = Ok (map h l).
Proof.
  intros H. induction l as [|x l IH]; [reflexivity|].
  cbn [map all_ok]. rewrite (H x) by (left; reflexivity). bnd.
  rewrite IH by (intros y Hy; apply H; right; exact Hy). reflexivity.
Qed.
Lemma as_list_map {A C} (f : jv -> outcome C) (g : A -> jv) (h : A -> C) l :
  (forall x, In x l -> f (g x) = Ok (h x)) -> as_list f (JArr (map g l)) = Ok (map h l).
Proof. apply all_ok_map. Qed.
Lemma nullable_slice {A C} (f : jv -> outcome C) (g : A -> jv) (h : A -> C) o :
  (forall l x, o = Some l -> In x l -> f (g x) = Ok (h x)) ->
  nullable (as_list f) (slice g o) = Ok (option_map (map h) o).
Proof.
  destruct o as [l|]; intros H; [|reflexivity].
  cbn [slice nullable option_map]. rewrite (as_list_map f g h) by (intros x; apply H; reflexivity). reflexivity.
Qed.
Lemma nullable_slice_arr {A C} (f : jv -> outcome C) (g : A -> jv) (h : A -> C) l :
  (forall x, In x l -> f (g x) = Ok (h x)) -> nullable (as_list f) (JArr (map g l)) = Ok (Some (map h l)).
Proof. intros H. cbn [nullable]. rewrite (as_list_map f g h) by exact H. reflexivity. Qed.
Lemma nullable_num x : nullable as_num (jfloat_null x) = Ok x.
Proof. destruct x; reflexivity. Qed.
Lemma as_int_jint z : as_int (jint z) = Ok z.
Proof. reflexivity. Qed.
Lemma nullable_int x : nullable as_int (jint_null x) = Ok x.
Proof. destruct x; reflexivity. Qed.

Definition page_of_target (it : index_target) : page_target := {| pt_table := it_table it; pt_columns := appended (it_cols it) |}.
Lemma read_target_json it : read_target (target_json it) = Ok (page_of_target it).
Proof.
  unfold read_target, target_json. hit. bnd. hit.
  rewrite (nullable_slice _ _ (fun c => c)).
  - cbn [obind as_str]. unfold page_of_target. destruct (appended (it_cols it)) as [l|]; cbn [option_map]; [rewrite map_id|]; reflexivity.
  - intros l x _ _. hit. reflexivity.
Qed.
Lemma read_option_json o : read_option (option_json o) = Ok o.
Proof. unfold read_option, option_json. do 3 (hit; bnd). destruct o. reflexivity. Qed.
Definition page_of_index_result (r : index_result) : page_index_result :=
  {| pi_target := page_of_target (ir_target r); pi_millis := ir_millis r |}.
Lemma read_index_result_json r : read_index_result (index_result_json r) = Ok (page_of_index_result r).
Proof. unfold read_index_result, index_result_json. hit. rewrite read_target_json. bnd. hit. reflexivity. Qed.
Definition page_of_result (r : examination_result) : page_result :=
  {| pr_original := er_original r; pr_results := option_map (map page_of_index_result) (appended (er_results r)) |}.
Lemma read_result_json r : read_result (result_json r) = Ok (page_of_result r).
Proof.
  unfold read_result, result_json. hit. bnd. hit.
  rewrite (nullable_slice _ _ page_of_index_result) by (intros ? x _ _; apply read_index_result_json). reflexivity.
Qed.

(** ** Trees *)
Fixpoint height {A} (t : tree A) : nat := match t with Node _ cs => S (list_max (map height cs)) end.
Lemma list_max_in l n : In n l -> n <= list_max l.
Proof.
  induction l as [|x l IH]; [contradiction|]. intros [E|H]; cbn [list_max fold_right].
  - subst. apply Nat.le_max_l.
  - specialize (IH H). unfold list_max in IH. lia.
Qed.
Lemma list_max_bound l n : (forall x, In x l -> x <= n) -> list_max l <= n.
Proof.
  intros H. apply list_max_le. apply Forall_forall. exact H.
Qed.
Lemma tree_all_kids {A} (P : A -> Prop) a cs : tree_all P (Node a cs) -> P a /\ forall c, In c cs -> tree_all P c.
Proof.
  cbn [tree_all]. intros [Ha H]. split; [exact Ha|].
  induction cs as [|y l IH]; [contradiction|]. destruct H as [H1 H2].
  intros c [E|Hc]; [subst; exact H1|apply IH; assumption].
Qed.
Section ReadTree.
  Context {A : Type} (fields : jv -> outcome A) (js : tree A -> jv) (nc : bool).
  Variable good : A -> Prop.
  Hypothesis Hfields : forall a cs, good a -> fields (js (Node a cs)) = Ok a.
  Hypothesis Hkids : forall a cs, get (lit "children") (js (Node a cs)) =
    Ok (match cs with [] => if nc then JNull else JArr [] | _ => JArr (map js cs) end).
  Lemma read_tree_json t : tree_all good t -> forall n, height t <= n -> read_tree fields nc n (js t) = Ok t.
  Proof.
    induction t as [a cs IH] using tree_ind'. intros Hg n Hn. destruct n as [|n]; [cbn in Hn; lia|].
    cbn [height] in Hn. apply le_S_n in Hn. destruct (tree_all_kids _ _ _ Hg) as [Ha Hcs].
    cbn [read_tree]. rewrite Hfields by exact Ha. bnd. unfold field at 1. rewrite Hkids. bnd.
    destruct cs as [|c cs].
    - destruct nc; cbn; reflexivity.
    - rewrite (nullable_slice_arr _ _ (fun x => x)); [bnd; rewrite map_id; reflexivity|].
      intros x Hx. rewrite Forall_forall in IH. apply IH; [exact Hx| |].
      + apply Hcs. exact Hx.
      + apply Nat.le_trans with (2 := Hn). apply list_max_in. apply in_map. exact Hx.
  Qed.
End ReadTree.
Lemma depth_kid k v l : In (k, v) l -> S (depth v) <= depth (JObj l).
Proof.
  intros H. cbn [depth]. apply le_n_S. apply list_max_in.
  apply in_map_iff. exists (k, v). split; [reflexivity|exact H].
Qed.
Lemma depth_arr {A} (f : A -> jv) l x : In x l -> S (depth (f x)) <= depth (JArr (map f l)).
Proof. intros H. cbn [depth]. apply le_n_S. apply list_max_in. rewrite map_map. apply in_map_iff. exists x. tauto. Qed.
Lemma height_json {A} (js : tree A -> jv) :
  (forall a cs, exists l, js (Node a cs) = JObj l /\ (cs = [] \/ In (lit "children", JArr (map js cs)) l)) ->
  forall t, height t <= depth (js t).
Proof.
  intros H t. induction t as [a cs IH] using tree_ind'. destruct (H a cs) as (l & E & Hl). rewrite E.
  cbn [height]. destruct Hl as [Hl|Hl].
  - subst cs. cbn [depth map list_max fold_right]. lia.
  - pose proof (depth_kid _ _ _ Hl) as Hd. apply Nat.le_trans with (2 := Hd). apply le_n_S.
    apply list_max_bound. intros n Hn. apply in_map_iff in Hn. destruct Hn as (c & Ec & Hc). subst n.
    rewrite Forall_forall in IH. specialize (IH c Hc). pose proof (depth_arr js cs c Hc). lia.
Qed.

Lemma tree_all_true {A} (P : A -> Prop) t : (forall a, P a) -> tree_all P t.
Proof.
  intros H. induction t as [a cs IH] using tree_ind'. cbn [tree_all]. split; [apply H|].
  induction IH; [exact I|]. split; assumption.
Qed.
Lemma read_mysql_node t : tree_all (fun n => vn_width n = None) t -> read_node (mysql_node_json t) = Ok t.
Proof.
  intros H. unfold read_node. apply read_tree_json with (good := fun n => vn_width n = None).
  - intros a cs Ha. cbn [mysql_node_json]. unfold read_node_fields.
    do 10 (hit; rewrite ?nullable_num, ?nullable_int; cbn [as_str obind]).
    rewrite field_miss by reflexivity. cbn [nullable obind]. rewrite <- Ha. destruct a; reflexivity.
  - intros a cs. cbn [mysql_node_json]. erewrite get_hit by reflexivity. destruct cs; reflexivity.
  - exact H.
  - apply le_S. apply height_json. intros a cs. cbn [mysql_node_json]. eexists. split; [reflexivity|].
    destruct cs as [|c cs]; [left; reflexivity|right]. do 10 right. left. reflexivity.
Qed.
Lemma read_pg_node t : read_node (pg_node_json t) = Ok t.
Proof.
  unfold read_node. apply read_tree_json with (good := fun _ => True).
  - intros a cs _. cbn [pg_node_json]. unfold read_node_fields.
    do 11 (hit; rewrite ?nullable_num, ?nullable_int; cbn [as_str obind]). destruct a; reflexivity.
  - intros a cs. cbn [pg_node_json]. erewrite get_hit by reflexivity. destruct cs; reflexivity.
  - apply tree_all_true. intros; exact I.
  - apply le_S. apply height_json. intros a cs. cbn [pg_node_json]. eexists. split; [reflexivity|].
    destruct cs as [|c cs]; [left; reflexivity|right]. do 11 right. left. reflexivity.
Qed.
Lemma read_span_json t : read_tree read_span_fields false (S (depth (span_json t))) (span_json t) = Ok t.
Proof.
  apply read_tree_json with (good := fun _ => True).
  - intros a cs _. cbn [span_json]. unfold read_span_fields. do 5 (hit; rewrite ?as_int_jint; cbn [as_str obind]). destruct a; reflexivity.
  - intros a cs. cbn [span_json]. erewrite get_hit by reflexivity. destruct cs; reflexivity.
  - apply tree_all_true. intros; exact I.
  - apply le_S. apply height_json. intros a cs. cbn [span_json]. eexists. split; [reflexivity|].
    right. do 5 right. left. reflexivity.
Qed.
Lemma read_trace_json t : read_trace (trace_json t) = Ok t.
Proof.
  unfold read_trace, trace_json. do 3 (hit; rewrite ?as_int_jint; cbn [as_str obind]). hit. rewrite read_span_json. bnd. destruct t; reflexivity.
Qed.
Lemma read_jaeger_json d : read_jaeger (jaeger_json d) = Ok d.
Proof.
  unfold read_jaeger, jaeger_json. do 3 (hit; rewrite ?as_int_jint; cbn [as_str obind]).
  do 2 (hit; rewrite (as_list_map _ _ (fun x => x)) by (intros x _; apply read_trace_json); rewrite map_id; bnd).
  destruct d; reflexivity.
Qed.
Lemma read_sql_load_json l : read_sql_load (sql_load_json l) = Ok l.
Proof. unfold read_sql_load, sql_load_json. do 4 (hit; cbn [as_str as_num obind]). destruct l; reflexivity. Qed.
Lemma read_db_load_json d : read_db_load (db_load_json d) = Ok d.
Proof.
  unfold read_db_load, db_load_json. hit. cbn [as_str obind]. hit.
  rewrite (as_list_map _ _ (fun x => x)) by (intros x _; apply read_sql_load_json). rewrite map_id. bnd. destruct d; reflexivity.
Qed.
Definition page_of_row (r : row) : page_row := {| pw_millis := row_date r; pw_dbs := tl_dbs r |}.
Lemma read_row_json r : read_row (row_json r) = Ok (page_of_row r).
Proof.
  unfold read_row, row_json. hit. rewrite as_int_jint. bnd. hit.
  rewrite (as_list_map _ _ (fun x => x)) by (intros x _; apply read_db_load_json). rewrite map_id. reflexivity.
Qed.
Lemma read_pi_json s t : read_pi (pi_json s t) = Ok (option_map (map page_of_row) s, option_map (map page_of_row) t).
Proof.
  unfold read_pi, pi_json.
  do 2 (hit; rewrite (nullable_slice _ _ page_of_row) by (intros ? x _ _; apply read_row_json); bnd). reflexivity.
Qed.

(** ** Object literals *)
Lemma evaluated_ordinary v : ordinary v -> evaluated v = v.
Proof.
  induction v as [|b|q|s|l IH|l IH] using jv_ind'; intros H; try reflexivity.
  - cbn [evaluated]. f_equal. cbn [ordinary] in H. induction IH as [|x l Hx Hl IHl]; [reflexivity|].
    destruct H as [H1 H2]. cbn [map]. rewrite Hx by exact H1. rewrite IHl by exact H2. reflexivity.
  - cbn [evaluated]. f_equal. cbn [ordinary] in H. induction IH as [|[k x] l Hx Hl IHl]; [reflexivity|].
    destruct H as (H0 & H1 & H2). cbn [snd] in Hx.
    destruct (seqb k (lit "__proto__")) eqn:E; [apply seqb_eq in E; contradiction|].
    rewrite Hx by exact H1. rewrite IHl by exact H2. reflexivity.
Qed.
Lemma ordinary_arr {A} (f : A -> jv) l : (forall x, In x l -> ordinary (f x)) -> ordinary (JArr (map f l)).
Proof.
  intros H. cbn [ordinary]. induction l as [|x l IH]; [exact I|]. cbn [map]. split; [apply H; left; reflexivity|].
  apply IH. intros y Hy. apply H. right. exact Hy.
Qed.
Lemma ordinary_slice {A} (f : A -> jv) o : (forall x, ordinary (f x)) -> ordinary (slice f o).
Proof. intros H. destruct o as [l|]; [|exact I]. apply ordinary_arr. intros x _. apply H. Qed.
Lemma ordinary_pointer {A} (f : A -> jv) o : (forall x, ordinary (f x)) -> ordinary (pointer f o).
Proof. intros H. destruct o as [x|]; [apply H|exact I]. Qed.
Lemma ordinary_float x : ordinary (jfloat_null x).
Proof. apply ordinary_pointer. intros; exact I. Qed.
Lemma ordinary_int x : ordinary (jint_null x).
Proof. apply ordinary_pointer. intros; exact I. Qed.
Ltac obj := cbn [ordinary]; repeat first [exact I | apply conj; [discriminate|] | apply conj; [first [exact I | apply ordinary_float | apply ordinary_int]|] ].
Lemma ordinary_target it : ordinary (target_json it).
Proof.
  unfold target_json. cbn [ordinary]. split; [discriminate|]. split; [exact I|]. split; [discriminate|]. split; [|exact I].
  apply ordinary_slice. intros c. cbn [ordinary]. split; [discriminate|]. split; exact I.
Qed.
Lemma ordinary_option o : ordinary (option_json o).
Proof. unfold option_json. obj. Qed.
Lemma ordinary_result r : ordinary (result_json r).
Proof.
  unfold result_json. cbn [ordinary]. split; [discriminate|]. split; [exact I|]. split; [discriminate|]. split; [|exact I].
  apply ordinary_slice. intros x. unfold index_result_json. cbn [ordinary]. split; [discriminate|]. split; [exact I|].
  split; [discriminate|]. split; [apply ordinary_target|exact I].
Qed.
Lemma ordinary_kids {A} (js : tree A -> jv) (cs : list (tree A)) :
  Forall (fun c => ordinary (js c)) cs -> ordinary (match cs with [] => JNull | _ => JArr (map js cs) end).
Proof.
  intros H. destruct cs as [|c cs]; [exact I|]. apply ordinary_arr. rewrite Forall_forall in H. exact H.
Qed.
Lemma ordinary_mysql_node t : ordinary (mysql_node_json t).
Proof.
  induction t as [a cs IH] using tree_ind'. cbn [mysql_node_json].
  change (ordinary (JObj ?l)) with (ordinary (JObj l)).
  pose proof (ordinary_kids mysql_node_json cs IH) as Hk.
  set (kids := match cs with [] => JNull | _ => JArr (map mysql_node_json cs) end) in *. clearbody kids.
  obj. apply conj; [exact Hk|exact I].
Qed.
Lemma ordinary_pg_node t : ordinary (pg_node_json t).
Proof.
  induction t as [a cs IH] using tree_ind'. cbn [pg_node_json].
  pose proof (ordinary_kids pg_node_json cs IH) as Hk.
  set (kids := match cs with [] => JNull | _ => JArr (map pg_node_json cs) end) in *. clearbody kids.
  obj. apply conj; [exact Hk|exact I].
Qed.
Lemma ordinary_span t : ordinary (span_json t).
Proof.
  induction t as [a cs IH] using tree_ind'. cbn [span_json].
  assert (Hk : ordinary (JArr (map span_json cs))) by (apply ordinary_arr; rewrite Forall_forall in IH; exact IH).
  set (kids := JArr (map span_json cs)) in *. clearbody kids.
  obj. apply conj; [exact Hk|exact I].
Qed.
Lemma ordinary_trace t : ordinary (trace_json t).
Proof.
  unfold trace_json. pose proof (ordinary_span (vt_root t)) as Hk. set (kids := span_json (vt_root t)) in *. clearbody kids.
  obj. apply conj; [exact Hk|exact I].
Qed.
Lemma ordinary_row r : ordinary (row_json r).
Proof.
  unfold row_json. cbn [ordinary]. split; [discriminate|]. split; [exact I|]. split; [discriminate|]. split; [|exact I].
  apply ordinary_arr. intros d _. unfold db_load_json. cbn [ordinary]. split; [discriminate|]. split; [exact I|].
  split; [discriminate|]. split; [|exact I]. apply ordinary_arr. intros l _. unfold sql_load_json. obj.
Qed.
Ltac member_ok t := split; [discriminate|]; split; [t|].
Definition ordinary_variables (b : build_option) : Prop :=
  match b with BoHasura d => when_some (fun l => ordinary (JObj l)) (snd (sd_gql d)) | _ => True end.
Lemma ordinary_gr_map b : ordinary_variables b -> ordinary (gr_map b).
Proof.
  intros H. destruct b as [d|d|d|s t|d]; unfold gr_map, suggest_json, dig_json.
  - member_ok idtac; [exact I|]. split; [discriminate|]. split; [|exact I].
    split; [discriminate|]. split.
    + unfold mysql_json. member_ok ltac:(exact I). member_ok ltac:(apply ordinary_slice, ordinary_mysql_node).
      member_ok ltac:(apply ordinary_slice, ordinary_target).
      member_ok ltac:(apply ordinary_arr; intros; apply ordinary_option).
      member_ok ltac:(apply ordinary_pointer, ordinary_result). exact I.
    + obj.
  - split; [discriminate|]. split; [exact I|]. split; [discriminate|]. split; [|exact I].
    split; [discriminate|]. split; [exact I|]. split; [discriminate|]. split; [|obj].
    unfold postgres_json. member_ok ltac:(exact I). member_ok ltac:(apply ordinary_slice, ordinary_pg_node).
    member_ok ltac:(exact I).
    member_ok ltac:(apply ordinary_slice, ordinary_target).
    member_ok ltac:(apply ordinary_arr; intros; apply ordinary_option).
    member_ok ltac:(apply ordinary_pointer, ordinary_result). exact I.
  - split; [discriminate|]. split; [exact I|]. split; [discriminate|]. split; [|exact I].
    split; [discriminate|]. split; [exact I|]. split; [discriminate|]. split; [exact I|]. split; [discriminate|]. split; [|exact I].
    unfold hasura_json. split; [discriminate|]. split; [|exact I].
    member_ok ltac:(exact I).
    split; [discriminate|]. split.
    { cbn [ordinary_variables] in H. destruct (snd (sd_gql d)) as [l|]; [exact H|exact I]. }
    member_ok ltac:(exact I). member_ok ltac:(apply ordinary_slice, ordinary_pg_node).
    member_ok ltac:(exact I).
    member_ok ltac:(apply ordinary_slice, ordinary_target).
    member_ok ltac:(apply ordinary_arr; intros; apply ordinary_option).
    member_ok ltac:(apply ordinary_pointer, ordinary_result). exact I.
  - split; [discriminate|]. split; [|obj]. split; [discriminate|]. split; [|obj].
    unfold pi_json. member_ok ltac:(apply ordinary_slice, ordinary_row). member_ok ltac:(apply ordinary_slice, ordinary_row). exact I.
  - split; [discriminate|]. split; [|obj]. split; [discriminate|]. split; [exact I|]. split; [discriminate|]. split; [|exact I].
    unfold jaeger_json. do 3 (member_ok ltac:(exact I)).
    do 2 (member_ok ltac:(apply ordinary_arr; intros; apply ordinary_trace)). exact I.
Qed.

(** ** Pages *)
Lemma read_base_json l (o1 : option (list index_target)) o2 q r :
  member (lit "query") l = Some (JStr q) -> member (lit "indexTargets") l = Some (slice target_json o1) ->
  member (lit "examinationCommandOptions") l = Some (JArr (map option_json o2)) ->
  member (lit "examinationResult") l = Some r ->
  read_base (JObj l) = Ok (q, option_map (map page_of_target) o1, Some o2, r).
Proof.
  intros H1 H2 H3 H4. unfold read_base. rewrite (field_hit _ _ _ _ H1). bnd. cbn [as_str obind].
  rewrite (field_hit _ _ _ _ H2), (nullable_slice _ _ page_of_target) by (intros ? x _ _; apply read_target_json). bnd.
  rewrite (field_hit _ _ _ _ H3), (nullable_slice_arr _ _ (fun x => x)) by (intros x _; apply read_option_json). bnd.
  rewrite map_id, (get_hit _ _ _ H4). reflexivity.
Qed.
Lemma mysql_result_json o : mysql_result (pointer result_json o) = Ok (option_map page_of_result o).
Proof.
  destruct o as [r|]; [|reflexivity]. unfold mysql_result. cbn [pointer]. change (truthy (result_json r)) with true. cbv iota.
  rewrite read_result_json. reflexivity.
Qed.
Lemma pg_result_json o : when_some (fun r => er_results r <> []) o -> pg_result (pointer result_json o) = Ok (option_map page_of_result o).
Proof.
  destruct o as [r|]; [|reflexivity]. cbn [when_some]. intros H. unfold pg_result. cbn [pointer].
  change (truthy (result_json r)) with true. cbv iota. rewrite read_result_json. bnd.
  cbn [page_of_result pr_results]. unfold appended. destruct (er_results r); [contradiction|reflexivity].
Qed.
Lemma pg_result_empty r : er_results r = [] -> pg_result (result_json r) = Panic.
Proof.
  intros H. unfold pg_result. change (truthy (result_json r)) with true. cbv iota. rewrite read_result_json. bnd.
  cbn [page_of_result pr_results]. rewrite H. reflexivity.
Qed.

Definition page_of (q : gostring) (summary : gostring) (gql : gostring * jv) (d : suggest_data) : suggest_page :=
  {| sp_query := q; sp_nodes := sd_nodes d; sp_summary := summary; sp_gql := gql;
     sp_targets := option_map (map page_of_target) (sd_targets d); sp_options := Some (sd_options d);
     sp_result := option_map page_of_result (sd_result d) |}.
Lemma new_mysql_json d : when_some (Forall (tree_all (fun n => vn_width n = None))) (sd_nodes d) ->
  new_mysql (mysql_json d) = Ok (page_of (sd_query d) [] ([], JNull) d).
Proof.
  intros Hw. unfold new_mysql, mysql_json. erewrite read_base_json by reflexivity. bnd.
  rewrite mysql_result_json. bnd. hit. rewrite (nullable_slice _ _ (fun x => x)).
  - bnd. unfold page_of. destruct (sd_nodes d) as [l|]; cbn [option_map]; [rewrite map_id|]; reflexivity.
  - intros l x El Hx. apply read_mysql_node. rewrite El in Hw.
    cbn [when_some] in Hw. rewrite Forall_forall in Hw. apply Hw. exact Hx.
Qed.
Lemma nullable_pg_nodes o : nullable (as_list read_node) (slice pg_node_json o) = Ok o.
Proof.
  rewrite (nullable_slice _ _ (fun x => x)) by (intros ? x _ _; apply read_pg_node).
  destruct o as [l|]; cbn [option_map]; [rewrite map_id|]; reflexivity.
Qed.
Lemma new_postgres_json d : when_some (fun r => er_results r <> []) (sd_result d) ->
  new_postgres (postgres_json d) = Ok (page_of (sd_query d) (sd_summary d) ([], JNull) d).
Proof.
  intros Hr. unfold new_postgres, postgres_json. erewrite read_base_json by reflexivity. bnd.
  rewrite pg_result_json by exact Hr. bnd. hit. rewrite nullable_pg_nodes. bnd. hit. reflexivity.
Qed.
Lemma new_hasura_json format d q : format (sd_query d) = Ok q -> when_some (fun r => er_results r <> []) (sd_result d) ->
  new_hasura format (hasura_json d) = Ok (page_of q (sd_summary d) (fst (sd_gql d), pointer JObj (snd (sd_gql d))) d).
Proof.
  intros Hq Hr. unfold new_hasura, hasura_json. erewrite get_hit by reflexivity. bnd. erewrite read_base_json by reflexivity. bnd.
  rewrite pg_result_json by exact Hr. bnd. rewrite Hq. bnd. hit. cbn [as_str obind]. hit. cbn [as_str obind].
  erewrite get_hit by reflexivity. bnd. hit. rewrite nullable_pg_nodes. reflexivity.
Qed.

Lemma fit_results d : suggest_fit d -> when_some (fun r => er_results r <> []) (sd_result d).
Proof. intros [_ H]. destruct (sd_result d) as [r|]; [|exact I]. exact (proj1 H). Qed.
Lemma store_suggest format m p h (m' p' h' : option suggest_page) :
  if_truthy new_mysql m = Ok m' -> if_truthy new_postgres p = Ok p' -> if_truthy (new_hasura format) h = Ok h' ->
  store format (JObj [(lit "digData", JNull); (lit "suggestData", suggest_json m p h)]) =
  Ok {| gp_suggest := Some {| ss_mysql := m'; ss_postgres := p'; ss_hasura := h' |}; gp_dig := None |}.
Proof.
  intros Hm Hp Hh. unfold store. hit. unfold if_truthy at 1. change (truthy (suggest_json m p h)) with true. cbv iota.
  unfold new_suggest, suggest_json. hit. rewrite Hm. bnd. hit. rewrite Hp. bnd. hit. rewrite Hh. bnd. hit. reflexivity.
Qed.
Lemma store_dig format p j p' j' :
  if_truthy read_pi p = Ok p' -> if_truthy read_jaeger j = Ok j' ->
  store format (JObj [(lit "digData", dig_json p j); (lit "suggestData", JNull)]) =
  Ok {| gp_suggest := None; gp_dig := Some {| dp_pi := p'; dp_jaeger := j' |} |}.
Proof.
  intros Hp Hj. unfold store. hit. unfold if_truthy at 1. cbn [truthy obind]. hit. unfold if_truthy at 1.
  change (truthy (dig_json p j)) with true. cbv iota. unfold new_dig, dig_json. hit. rewrite Hp. bnd. hit. rewrite Hj. reflexivity.
Qed.
Lemma if_truthy_obj {A} (f : jv -> outcome A) l x : f (JObj l) = Ok x -> if_truthy f (JObj l) = Ok (Some x).
Proof. intros H. unfold if_truthy. cbn [truthy]. rewrite H. reflexivity. Qed.

Definition page_opened (format : gostring -> outcome gostring) (b : build_option) (q : gostring) : page :=
  match b with
  | BoMysql d => PageSuggest SubMysql (page_of (sd_query d) [] ([], JNull) d)
  | BoPostgres d => PageSuggest SubPostgres (page_of (sd_query d) (sd_summary d) ([], JNull) d)
  | BoHasura d => PageSuggest SubHasura (page_of q (sd_summary d) (fst (sd_gql d), pointer JObj (snd (sd_gql d))) d)
  | BoPi s t => PagePi (option_map (map page_of_row) s) (option_map (map page_of_row) t)
  | BoJaeger d => PageJaeger d
  end.
Lemma fit_variables format b : fit format b -> ordinary_variables b.
Proof. intros H. destruct b; try exact I. exact (proj2 (proj2 H)). Qed.
Lemma opens format b : fit format b ->
  exists q, open_page format (bundle_of b) (gr_map b) = Ok (page_opened format b q) /\
            match b with BoHasura d => format (sd_query d) = Ok q | _ => True end.
Proof.
  intros H. unfold open_page. rewrite (evaluated_ordinary _ (ordinary_gr_map b (fit_variables format b H))).
  destruct b as [d|d|d|s t|d]; cbn [fit] in H; cbn [gr_map bundle_of page_opened].
  - destruct H as [Hf Hw]. exists []. split; [|exact I].
    rewrite (store_suggest format (mysql_json d) JNull JNull _ None None (if_truthy_obj _ _ _ (new_mysql_json d Hw)) eq_refl eq_refl). reflexivity.
  - exists []. split; [|exact I].
    rewrite (store_suggest format JNull (postgres_json d) JNull None _ None eq_refl (if_truthy_obj _ _ _ (new_postgres_json d (fit_results d H))) eq_refl). reflexivity.
  - destruct H as (Hf & [q Hq] & _). exists q. split; [|exact Hq].
    rewrite (store_suggest format JNull JNull (hasura_json d) None None _ eq_refl eq_refl (if_truthy_obj _ _ _ (new_hasura_json format d q Hq (fit_results d Hf)))). reflexivity.
  - exists []. split; [|exact I].
    rewrite (store_dig format (pi_json s t) JNull _ None (if_truthy_obj _ _ _ (read_pi_json s t)) eq_refl). reflexivity.
  - exists []. split; [|exact I].
    rewrite (store_dig format JNull (jaeger_json d) None _ eq_refl (if_truthy_obj _ _ _ (read_jaeger_json d))). reflexivity.
Qed.

Lemma target_shown_ok it : has_columns it -> target_shown it (page_of_target it).
Proof. unfold has_columns, target_shown, page_of_target, appended. cbn. destruct (it_cols it); [contradiction|]. intros _. split; reflexivity. Qed.
Lemma Forall2_map_self {A B} (R : A -> B -> Prop) (f : A -> B) l : (forall x, In x l -> R x (f x)) -> Forall2 R l (map f l).
Proof.
  intros H. induction l as [|x l IH]; constructor; [apply H; left; reflexivity|]. apply IH. intros y Hy. apply H. right. exact Hy.
Qed.
Lemma result_shown_ok r : examined r -> result_shown r (page_of_result r).
Proof.
  intros [Hn Hc]. split; [reflexivity|]. exists (map page_of_index_result (er_results r)). split.
  - cbn [page_of_result pr_results]. unfold appended. destruct (er_results r); [contradiction|reflexivity].
  - apply Forall2_map_self. intros x Hx. split; [|reflexivity]. apply target_shown_ok.
    rewrite Forall_forall in Hc. apply Hc. exact Hx.
Qed.
Lemma suggest_shown_ok d q s g : suggest_fit d -> suggest_shown d (page_of q s g d).
Proof.
  intros [Ht Hr]. split; [reflexivity|]. split; [|split; [reflexivity|]].
  - cbn [page_of sp_targets]. destruct (sd_targets d) as [l|]; [|exact I]. cbn [option_map option_rel].
    apply Forall2_map_self. intros x Hx. apply target_shown_ok. cbn [when_some] in Ht. rewrite Forall_forall in Ht. apply Ht, Hx.
  - cbn [page_of sp_result]. destruct (sd_result d) as [r|]; [|exact I]. cbn [option_map option_rel]. apply result_shown_ok. exact Hr.
Qed.
Lemma rows_shown_ok o : option_rel (Forall2 row_shown) o (option_map (map page_of_row) o).
Proof.
  destruct o as [l|]; [|exact I]. cbn [option_map option_rel]. apply Forall2_map_self. intros r _. split; [|reflexivity].
  cbn [page_of_row pw_millis]. unfold row_date.
  pose proof (Z.div_mod (t_ns (tl_time r)) 1000000 ltac:(lia)) as H1.
  pose proof (Z.mod_pos_bound (t_ns (tl_time r)) 1000000 ltac:(lia)) as H2. lia.
Qed.
Lemma page_shows_ok format b q : fit format b ->
  match b with BoHasura d => format (sd_query d) = Ok q | _ => True end -> page_shows format b (page_opened format b q).
Proof.
  intros H Hq. destruct b as [d|d|d|s t|d]; cbn [fit page_shows page_opened] in *.
  - split; [reflexivity|]. apply suggest_shown_ok, (proj1 H).
  - split; [reflexivity|]. split; [apply suggest_shown_ok, H|reflexivity].
  - split; [exact Hq|]. split; [apply suggest_shown_ok, (proj1 H)|]. split; [reflexivity|]. split; [reflexivity|].
    cbn [page_of sp_gql snd]. destruct (snd (sd_gql d)); reflexivity.
  - split; apply rows_shown_ok.
  - reflexivity.
Qed.

(** ** Cards *)
Lemma with_columns_ok f it : has_columns it -> with_columns f (page_of_target it) = Ok (f it).
Proof.
  unfold has_columns, with_columns, page_of_target, appended. cbn. destruct it as [t c]. cbn. destruct c; [contradiction|reflexivity].
Qed.
Lemma to_index_target_ok it : has_columns it -> to_index_target (page_of_target it) = Ok it.
Proof.
  unfold has_columns, to_index_target, page_of_target, appended. cbn. destruct it as [t c]. cbn. destruct c; [contradiction|reflexivity].
Qed.
Lemma picked_map {A B} (f : A -> B) bs l : picked bs (map f l) = map f (picked bs l).
Proof. revert l. induction bs as [|b bs IH]; intros [|x l]; try reflexivity. cbn. destruct b; cbn; rewrite IH; reflexivity. Qed.
Lemma picked_checked bs its : picked bs its = still_checked bs its.
Proof.
  unfold still_checked. revert its. induction bs as [|b bs IH]; intros [|x l]; try reflexivity.
  cbn. destruct b; cbn; rewrite IH; reflexivity.
Qed.
Lemma picked_in {A} bs (l : list A) x : In x (picked bs l) -> In x l.
Proof.
  revert l. induction bs as [|b bs IH]; intros [|y l]; cbn; try contradiction.
  destruct b; [intros [E|H]; [left; exact E|right; apply IH, H]|intros H; right; apply IH, H].
Qed.
Lemma suggestion_card_ok k bs its os : Forall has_columns its ->
  suggestion_card k bs (map page_of_target its) (Some os) =
  Ok (map index_text its, build_command_text k (still_checked bs its) os).
Proof.
  intros H. rewrite Forall_forall in H. unfold suggestion_card.
  rewrite (all_ok_map _ _ index_text) by (intros x Hx; rewrite with_columns_ok by (apply H, Hx); reflexivity). bnd.
  rewrite picked_map, (all_ok_map _ _ (fun x => x)).
  - bnd. rewrite map_id, picked_checked. reflexivity.
  - intros x Hx. apply to_index_target_ok, H. apply picked_in with (1 := Hx).
Qed.
Definition exam_row_of (k : sub_command) (o : Z) (x : page_index_result) : exam_row :=
  {| xr_millis := pi_millis x; xr_percent := reduction o (pi_millis x);
     xr_index := index_text (mk_it (pt_table (pi_target x)) (match pt_columns (pi_target x) with Some c => c | None => [] end));
     xr_sql := index_sql k (mk_it (pt_table (pi_target x)) (match pt_columns (pi_target x) with Some c => c | None => [] end)) |}.
Lemma exam_rows_ok srt k o l : (forall l, Permutation (srt l) l) ->
  (forall x, In x l -> pt_columns (pi_target x) <> None) ->
  exam_rows srt k {| pr_original := o; pr_results := Some l |} = Ok (map (exam_row_of k o) (srt l)).
Proof.
  intros Hp H. cbn [exam_rows pr_results pr_original]. rewrite <- (map_id (srt l)) at 1.
  apply all_ok_map. intros x Hx.
  assert (Hc : pt_columns (pi_target x) <> None) by (apply H; apply (Permutation_in x (Hp l)); exact Hx).
  unfold with_columns. destruct (pt_columns (pi_target x)) as [c|] eqn:E; [|contradiction]. bnd.
  unfold exam_row_of. rewrite E. destruct k; reflexivity.
Qed.
Lemma reduction_saving o t : saving o t (reduction o t).
Proof.
  unfold saving, reduction. destruct (Z.eqb o 0) eqn:E; [apply Z.eqb_eq in E; exact E|].
  apply Z.eqb_neq in E. split; [exact E|]. field. intros H.
  unfold Qeq in H. cbn in H. lia.
Qed.
Lemma exam_table_ok srt k er : is_sort faster srt -> examined er ->
  exists rows, exam_rows srt k (page_of_result er) = Ok rows /\ exam_table k er rows.
Proof.
  intros Hs [Hn Hc]. rewrite Forall_forall in Hc.
  assert (Hp : forall l, Permutation (srt l) l) by (intros l; apply (Hs l)).
  set (l := map page_of_index_result (er_results er)).
  assert (El : page_of_result er = {| pr_original := er_original er; pr_results := Some l |}).
  { unfold page_of_result, appended, l. destruct (er_results er); [contradiction|reflexivity]. }
  exists (map (exam_row_of k (er_original er)) (srt l)). split.
  - rewrite El. apply exam_rows_ok; [exact Hp|].
    intros x Hx. unfold l in Hx. apply in_map_iff in Hx. destruct Hx as (r & Er & Hr). subst x.
    destruct (target_shown_ok _ (Hc r Hr)) as [_ H2]. cbn [page_of_index_result pi_target]. rewrite H2. discriminate.
  - split; [|split].
    + rewrite map_map. transitivity (map (fun x => (xr_millis (exam_row_of k (er_original er) x), xr_index (exam_row_of k (er_original er) x), xr_sql (exam_row_of k (er_original er) x))) l).
      { apply Permutation_map, Hp. }
      unfold l. rewrite map_map. apply Permutation_refl'. apply map_ext_in. intros r Hr.
      destruct (target_shown_ok _ (Hc r Hr)) as [H1 H2]. unfold exam_row_of. cbn [page_of_index_result pi_target pi_millis xr_millis xr_index xr_sql].
      rewrite H1, H2. destruct (ir_target r); reflexivity.
    + intros i j a b Hij Ha Hb. rewrite nth_error_map in Ha, Hb.
      destruct (nth_error (srt l) i) as [x|] eqn:Ex; [|discriminate Ha]. destruct (nth_error (srt l) j) as [y|] eqn:Ey; [|discriminate Hb].
      injection Ha as <-. injection Hb as <-. cbn [exam_row_of xr_millis].
      pose proof (LoadChartsProofs.sorted_nth _ _ _ (proj2 (Hs l)) i j x y Hij Ex Ey) as K.
      unfold faster in K. apply Z.ltb_ge in K. exact K.
    + apply Forall_map, Forall_forall. intros x _. apply reduction_saving.
Qed.
Lemma seqb_nil (s : gostring) {A} (x y : A) : (if seqb s [] then x else y) = match s with [] => x | _ => y end.
Proof. destruct s; reflexivity. Qed.
Lemma cards_page_of srt bs k q s g d : is_sort faster srt -> suggest_fit d ->
  exists exam, cards srt bs k (page_of q s g d) =
    Ok (match k with SubHasura => match fst g with [] => [] | _ => [CardGql (fst g) (snd g)] end | _ => [] end ++
        sql_cards k q ++ plan_cards k (sd_nodes d) s ++
        match sd_targets d with
        | None => []
        | Some its => [CardSuggestion (match sd_result d with None => true | Some _ => false end) (map index_text its)
                         (build_command_text k (still_checked bs its) (sd_options d))]
        end ++ exam) /\ is_exam_card k (sd_result d) exam.
Proof.
  intros Hs [Ht Hr].
  assert (Hx : exists exam, show_if (option_map page_of_result (sd_result d)) (fun r =>
      do rows <- exam_rows srt k r; Ok [CardExamination (pr_original r) rows]) = Ok exam /\ is_exam_card k (sd_result d) exam).
  { destruct (sd_result d) as [er|]; [|exists []; split; reflexivity]. cbn [option_map show_if].
    destruct (exam_table_ok srt k er Hs Hr) as (rows & E & HT). rewrite E. bnd.
    eexists. split; [reflexivity|]. exists rows. split; [reflexivity|exact HT]. }
  destruct Hx as (exam & Ex & HT). exists exam. split; [|exact HT].
  unfold cards, page_of. cbn [sp_query sp_nodes sp_summary sp_gql sp_targets sp_options sp_result]. rewrite Ex.
  assert (Ep : show_if (sd_nodes d) (fun ns => Ok [CardPlan ns match k with SubMysql => [] | _ => s end; CardTimeline ns]) =
               Ok (plan_cards k (sd_nodes d) s)) by (destruct (sd_nodes d); reflexivity).
  rewrite Ep. bnd.
  assert (Et : show_if (option_map (map page_of_target) (sd_targets d)) (fun ts =>
      do c <- suggestion_card k bs ts (Some (sd_options d));
      Ok [CardSuggestion match option_map page_of_result (sd_result d) with None => true | Some _ => false end (fst c) (snd c)]) =
    Ok (match sd_targets d with
        | None => []
        | Some its => [CardSuggestion (match sd_result d with None => true | Some _ => false end) (map index_text its)
                         (build_command_text k (still_checked bs its) (sd_options d))]
        end)).
  { destruct (sd_targets d) as [its|]; [|reflexivity]. cbn [option_map show_if]. rewrite suggestion_card_ok by exact Ht. bnd.
    destruct (sd_result d); reflexivity. }
  rewrite Et. bnd. rewrite !seqb_nil. unfold sql_cards. reflexivity.
Qed.
(** Null results *)
Lemma browse_empty format srt bs b d er : ordinary_variables b ->
  match b with
  | BoMysql x => x = d /\ when_some (Forall (tree_all (fun n => vn_width n = None))) (sd_nodes d)
  | BoPostgres x => x = d
  | BoHasura x => x = d
  | _ => False
  end ->
  sd_result d = Some er -> er_results er = [] -> when_some (Forall has_columns) (sd_targets d) ->
  browse format srt bs b = Panic.
Proof.
  intros Hv Hb Hr He Ht. unfold browse, open_page. rewrite (evaluated_ordinary _ (ordinary_gr_map b Hv)).
  assert (Hp : pg_result (pointer result_json (sd_result d)) = Panic) by (rewrite Hr; apply pg_result_empty; exact He).
  destruct b as [x|x|x|? ?|?]; try contradiction; cbn [gr_map bundle_of].
  - destruct Hb as [Hb Hw]. subst x.
    rewrite (store_suggest format (mysql_json d) JNull JNull _ None None (if_truthy_obj _ _ _ (new_mysql_json d Hw)) eq_refl eq_refl).
    bnd. cbn [main_page gp_suggest ss_mysql obind shown]. unfold cards, page_of.
    cbn [sp_query sp_nodes sp_summary sp_gql sp_targets sp_options sp_result]. rewrite Hr. cbn [option_map].
    assert (Ep : exists p, show_if (sd_nodes d) (fun ns => Ok [CardPlan ns []; CardTimeline ns]) = Ok p) by (destruct (sd_nodes d); eexists; reflexivity).
    destruct Ep as [p Ep]. rewrite Ep. bnd.
    destruct (sd_targets d) as [its|]; cbn [option_map show_if obind].
    + rewrite suggestion_card_ok by exact Ht. bnd. unfold exam_rows, page_of_result. cbn [pr_results]. rewrite He. reflexivity.
    + unfold exam_rows, page_of_result. cbn [pr_results]. rewrite He. reflexivity.
  - subst x. unfold store. hit. unfold if_truthy at 1. change (truthy (suggest_json JNull (postgres_json d) JNull)) with true. cbv iota.
    unfold new_suggest, suggest_json. hit. cbn [if_truthy truthy obind]. hit. unfold if_truthy at 1.
    change (truthy (postgres_json d)) with true. cbv iota. unfold new_postgres, postgres_json.
    erewrite read_base_json by reflexivity. bnd. rewrite Hp. reflexivity.
  - subst x. unfold store. hit. unfold if_truthy at 1. change (truthy (suggest_json JNull JNull (hasura_json d))) with true. cbv iota.
    unfold new_suggest, suggest_json. hit. cbn [if_truthy truthy obind]. hit. cbn [if_truthy truthy obind]. hit. unfold if_truthy at 1.
    change (truthy (hasura_json d)) with true. cbv iota. unfold new_hasura, hasura_json.
    erewrite get_hit by reflexivity. bnd. erewrite read_base_json by reflexivity. bnd. rewrite Hp. reflexivity.
Qed.
