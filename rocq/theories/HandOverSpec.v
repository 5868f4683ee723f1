(** What the pages have to show, said with the data of the command. *)
From Coq Require Import String List NArith ZArith QArith Bool Permutation Sorted.
From Verif Require Import Base Json ExplainTree IndexText Examiner CommandText PlanView Otel Pi TraceDiagram HandOver.
Import ListNotations.
Local Open Scope nat_scope.

Definition option_rel {A B} (R : A -> B -> Prop) (a : option A) (b : option B) : Prop :=
  match a, b with None, None => True | Some x, Some y => R x y | _, _ => False end.

(** ** The data of the page is the command's *)
Definition target_shown (it : index_target) (t : page_target) : Prop :=
  pt_table t = it_table it /\ pt_columns t = Some (it_cols it).
Definition result_shown (er : examination_result) (r : page_result) : Prop :=
  pr_original r = er_original er /\
  exists l, pr_results r = Some l /\
    Forall2 (fun a b => target_shown (ir_target a) (pi_target b) /\ pi_millis b = ir_millis a) (er_results er) l.
Definition suggest_shown (d : suggest_data) (p : suggest_page) : Prop :=
  sp_nodes p = sd_nodes d /\
  option_rel (Forall2 target_shown) (sd_targets d) (sp_targets p) /\
  sp_options p = Some (sd_options d) /\
  option_rel result_shown (sd_result d) (sp_result p).
(** The milliseconds since the epoch *)
Definition row_shown (r : @time_load Q) (w : page_row) : Prop :=
  (pw_millis w * 1000000 <= t_ns (tl_time r) < (pw_millis w + 1) * 1000000)%Z /\ pw_dbs w = tl_dbs r.
Definition variables_shown (m : option (list (gostring * jv))) (v : jv) : Prop :=
  match m with None => v = JNull | Some l => v = JObj l end.
Definition page_shows (format : gostring -> outcome gostring) (b : build_option) (p : page) : Prop :=
  match b, p with
  | BoMysql d, PageSuggest SubMysql x => sp_query x = sd_query d /\ suggest_shown d x
  | BoPostgres d, PageSuggest SubPostgres x =>
      sp_query x = sd_query d /\ suggest_shown d x /\ sp_summary x = sd_summary d
  | BoHasura d, PageSuggest SubHasura x =>
      format (sd_query d) = Ok (sp_query x) /\ suggest_shown d x /\ sp_summary x = sd_summary d /\
      fst (sp_gql x) = fst (sd_gql d) /\ variables_shown (snd (sd_gql d)) (snd (sp_gql x))
  | BoPi s t, PagePi s' t' => option_rel (Forall2 row_shown) s s' /\ option_rel (Forall2 row_shown) t t'
  | BoJaeger d, PageJaeger d' => d' = d
  | _, _ => False
  end.

(** ** What is asked of the data *)
Definition has_columns (it : index_target) : Prop := it_cols it <> [].
Definition examined (er : examination_result) : Prop :=
  er_results er <> [] /\ Forall (fun r => has_columns (ir_target r)) (er_results er).
Fixpoint tree_all {A} (P : A -> Prop) (t : tree A) : Prop :=
  match t with Node a cs => P a /\ (fix go l := match l with [] => True | c :: l' => tree_all P c /\ go l' end) cs end.
Definition when_some {A} (P : A -> Prop) (o : option A) : Prop := match o with None => True | Some x => P x end.
(** No member called __proto__ at any depth *)
Fixpoint ordinary (v : jv) : Prop :=
  match v with
  | JArr l => (fix go l := match l with [] => True | x :: l' => ordinary x /\ go l' end) l
  | JObj l => (fix go l := match l with [] => True | (k, x) :: l' => k <> lit "__proto__" /\ ordinary x /\ go l' end) l
  | _ => True
  end.
Definition suggest_fit (d : suggest_data) : Prop :=
  when_some (Forall has_columns) (sd_targets d) /\ when_some examined (sd_result d).
Definition fit (format : gostring -> outcome gostring) (b : build_option) : Prop :=
  match b with
  | BoMysql d => suggest_fit d /\ when_some (Forall (tree_all (fun n => vn_width n = None))) (sd_nodes d)
  | BoPostgres d => suggest_fit d
  | BoHasura d => suggest_fit d /\ (exists q, format (sd_query d) = Ok q) /\
                  when_some (fun l => ordinary (JObj l)) (snd (sd_gql d))
  | _ => True
  end.

(** ** The cards of a suggestion *)
Definition index_text (it : index_target) : gostring :=
  lit "Table=" ++ it_table it ++ lit " / Column=" ++ join (lit ", ") (it_cols it).
Definition index_sql (k : sub_command) (it : index_target) : gostring :=
  match k with
  | SubMysql => lit "ALTER TABLE " ++ it_table it ++ lit " ADD INDEX (" ++ join (lit ", ") (it_cols it) ++ lit ");"
  | _ => lit "CREATE INDEX ON " ++ it_table it ++ lit " (" ++ join (lit ", ") (it_cols it) ++ lit ");"
  end.
(** The targets whose box is checked *)
Definition still_checked (checked : list bool) (its : list index_target) : list index_target :=
  map snd (filter fst (combine checked its)).
(** Fastest first, every result once, with its saving in per cent of the original time. *)
Definition saving (original t : Z) (p : option Q) : Prop :=
  match p with
  | None => original = 0%Z
  | Some q => original <> 0%Z /\ (q * inject_Z original == 100 * (inject_Z original - inject_Z t))%Q
  end.
Definition exam_table (k : sub_command) (er : examination_result) (rows : list exam_row) : Prop :=
  Permutation (map (fun x => (xr_millis x, xr_index x, xr_sql x)) rows)
    (map (fun r => (ir_millis r, index_text (ir_target r), index_sql k (ir_target r))) (er_results er)) /\
  (forall i j a b, i < j -> nth_error rows i = Some a -> nth_error rows j = Some b -> (xr_millis a <= xr_millis b)%Z) /\
  Forall (fun x => saving (er_original er) (xr_millis x) (xr_percent x)) rows.
Definition is_exam_card (k : sub_command) (er : option examination_result) (l : list card) : Prop :=
  match er with
  | None => l = []
  | Some er => exists rows, l = [CardExamination (er_original er) rows] /\ exam_table k er rows
  end.
(** The cards above the examination, for the arguments of the command; [q] is the SQL in
    the layout of the page. *)
Definition gql_cards (k : sub_command) (query : gostring) (parsed : option (list (gostring * jv))) : list card :=
  match k with
  | SubHasura => match query with
                 | [] => []
                 | _ => [CardGql query (match parsed with None => JNull | Some l => JObj l end)]
                 end
  | _ => []
  end.
Definition sql_cards (k : sub_command) (q : gostring) : list card :=
  match q with [] => [] | _ => [CardSql q (match k with SubHasura => false | _ => true end)] end.
Definition plan_cards (k : sub_command) (nodes : option (list (tree vm_node))) (summary : gostring) : list card :=
  match nodes with
  | None => []
  | Some ns => [CardPlan ns (match k with SubMysql => [] | _ => summary end); CardTimeline ns]
  end.
Definition suggestion_cards (k : sub_command) (its : list index_target) (er : option examination_result) (command : gostring) : list card :=
  match k, its with
  | SubPostgres, [] => []
  | _, _ => [CardSuggestion (match er with None => true | Some _ => false end) (map index_text its) command]
  end.

(** ** The tables of traces *)
(** A row for a trace of the report: id, duration of the root, count, service *)
Definition trace_row (v : vm_trace) (t : trace_tree) : Prop :=
  tt_id t = vt_id v /\ tt_count t = vt_count v /\ tt_service t = vt_service v /\
  (v_start (t_val (vt_root v)) + tt_duration t = v_end (t_val (vt_root v)))%Z.
(** An http(s) URL of scheme and host alone, with or without a closing slash *)
Definition host_url (u base : gostring) : Prop :=
  exists scheme host, (scheme = lit "http://" \/ scheme = lit "https://") /\ host <> [] /\
    Forall (fun c => ~ In c (lit "/?#\")) host /\ base = scheme ++ host /\ (u = base \/ u = base ++ lit "/").
