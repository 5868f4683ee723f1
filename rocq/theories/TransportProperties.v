(** C129: what of the secrets is logged. *)
From Coq Require Import String List NArith ZArith QArith Bool Lia Arith.
From Verif Require Import Base Dec IndexText IndexBuild TableFields Existing Examiner SuggestCmd Json HandOver CommandText Program Paths Diary DiarySpec DiaryProofs Transport.
From Verif Require MysqlAst PgAst ConnText.
Import ListNotations.
Local Open Scope nat_scope.

(** ** Transport *)
(** The request goes on once and unchanged, the answer comes back unchanged; there is one line
    before and one behind, both for --verbose only. *)
Theorem transport_faithful : forall W R (inner : W -> http_request -> W * Z * http_answer R) quote w rq,
    let '(d, w', a) := round_trip inner quote w rq in
    acts d = [rq] /\ inner w rq = (w', snd (fst (inner w rq)), a) /\ screen false d = [] /\
    exists back, d = [Said Debug (of_string "[http] --> " ++ rq_method rq ++ of_string " " ++ rq_url rq); Did rq; Said Debug back] /\
      match a with
      | Response status _ => exists ms, whole (snd (fst (inner w rq))) ms /\
          back = of_string "[http] <-- method=" ++ rq_method rq ++ of_string " host=" ++ rq_host rq ++ of_string " path=" ++ rq_path rq ++
                 of_string " status=" ++ dec_of_N status ++ of_string " durationMs=" ++ ms
      | Failure m => exists ms, whole (snd (fst (inner w rq))) ms /\
          back = of_string "[http] <-- ERROR method=" ++ rq_method rq ++ of_string " host=" ++ rq_host rq ++ of_string " path=" ++ rq_path rq ++
                 of_string " status=error durationMs=" ++ ms ++ of_string " error=" ++ quote m
      end.
Proof.
  intros W R inner quote w rq. unfold round_trip. destruct (inner w rq) as [[w1 ms] a]. cbn [fst snd].
  assert (HW : whole ms (int_text ms)).
  { unfold int_text, whole. destruct (Z.ltb_spec ms 0); [right; exists (Z.to_N (- ms))|left; exists (Z.to_N ms)]; (split; [lia|]); [split; [lia|reflexivity]|reflexivity]. }
  repeat apply conj; [reflexivity|reflexivity|reflexivity|]. eexists. split; [reflexivity|].
  destruct a as [status rest|m]; exists (int_text ms); (split; [exact HW|]); rewrite <- !app_assoc; reflexivity.
Qed.
(** The lines do not depend on the headers nor on the body: the admin secret and the statements
    are not in them. *)
Theorem secret_unseen : forall W R (inner inner' : W -> http_request -> W * Z * http_answer R) quote w parsed base path s s' body body',
    inner w (hasura_request parsed base s path body) = inner' w (hasura_request parsed base s' path body') ->
    let '(d, w1, a) := round_trip inner quote w (hasura_request parsed base s path body) in
    let '(d', w1', a') := round_trip inner' quote w (hasura_request parsed base s' path body') in
    said d = said d' /\ w1 = w1' /\ a = a'.
Proof.
  intros W R inner inner' quote w parsed base path s s' body body' H. unfold round_trip. rewrite H. clear H. unfold hasura_request.
  destruct (parsed (resolve_url base path)) as [[text host] p]. destruct (inner' w _) as [[w1 ms] a]. cbn [rq_method rq_url rq_host rq_path]. repeat apply conj; reflexivity.
Qed.
Definition occurs (x t : gostring) : Prop := exists a b, t = a ++ x ++ b.
(** But with --verbose everything in the URL is shown, so also a password in it. *)
Theorem url_shown : forall W R (inner : W -> http_request -> W * Z * http_answer R) quote w rq x,
    occurs x (rq_url rq) -> exists line, In line (screen true (fst (fst (round_trip inner quote w rq)))) /\ occurs x line.
Proof.
  intros W R inner quote w rq x (a & b & E). unfold round_trip. destruct (inner w rq) as [[w1 ms] ans]. eexists. split; [left; reflexivity|].
  rewrite E. exists (lit "[http] --> " ++ rq_method rq ++ lit " " ++ a), b. now rewrite <- !app_assoc.
Qed.
Definition ex_parsed (t : gostring) : gostring * gostring * gostring := (t, lit "h", lit "/v2/query").
Definition ex_base : base_url := {| bu_origin := lit "http://me:pw@h"; bu_path := []; bu_raw := []; bu_tail := [] |}.
Definition ex_inner (w : nat) (rq : http_request) : nat * Z * http_answer gostring :=
  if seqb (rq_body rq) (lit "{}") then (S w, 12%Z, Response 200 (lit "ok")) else (w, 3%Z, Failure (lit "EOF")).
Example transport_ex :
  screen true (fst (fst (round_trip ex_inner (fun m => lit "'" ++ m ++ lit "'") 0 (hasura_request ex_parsed ex_base (lit "secret") (lit "/v2/query") (lit "{}"))))) =
    [lit "[http] --> POST http://me:pw@h/v2/query"; lit "[http] <-- method=POST host=h path=/v2/query status=200 durationMs=12"] /\
  screen true (fst (fst (round_trip ex_inner (fun m => lit "'" ++ m ++ lit "'") 0 (hasura_request ex_parsed ex_base (lit "secret") (lit "/v2/query") (lit "x"))))) =
    [lit "[http] --> POST http://me:pw@h/v2/query"; lit "[http] <-- ERROR method=POST host=h path=/v2/query status=error durationMs=3 error='EOF'"] /\
  occurs (lit "pw") (rq_url (hasura_request ex_parsed ex_base (lit "secret") (lit "/v2/query") (lit "{}"))) /\
  ex_inner 0 (hasura_request ex_parsed ex_base (lit "secret") (lit "/v2/query") (lit "{}")) = ex_inner 0 (hasura_request ex_parsed ex_base (lit "other") (lit "/v2/query") (lit "{}")).
Proof. repeat apply conj; [reflexivity|reflexivity| |reflexivity]. exists (lit "http://me:"), (lit "@h/v2/query"). reflexivity. Qed.

(** ** Passwords of databases *)
Definition hide (e : entry act) : entry act := match e with Did (AOpen _) => Did (AOpen []) | _ => e end.
(** Two environments that differ in the password only *)
Definition same_but_password (env env' : gostring -> gostring) : Prop := forall k, k <> of_string "DB_PASSWORD" -> env k = env' k.
Section Password.
Context {W : Type} (tord : list (gostring * list index_result) -> list (gostring * list index_result)) (rsrt : list index_result -> list index_result)
  (fold : rune -> rune) (so : list gostring -> list gostring)
  (ord : order gostring) (ordf : order ifield) (srt : list index_target_table -> list index_target_table)
  (unix : N) (rnds : nat -> N) (wd : option gostring) (runs : bool) (texts : list gostring) (query output : gostring).
Lemma connected_same : forall (sv : world W) c c' (p : @noisy W unit) w, on_open sv w c = on_open sv w c' ->
    let '(d, w1, r) := connected_aloud sv c p w in let '(d', w1', r') := connected_aloud sv c' p w in
    map hide d = map hide d' /\ w1 = w1' /\ r = r'.
Proof.
  intros sv c c' p w H. unfold connected_aloud. rewrite H. destruct (on_open sv w c') as [w1 [m|]]; [auto|]. destruct (p w1) as [[d w2] r]. auto.
Qed.
Lemma hide_said : forall d d', map hide d = map hide d' -> said d = said d'.
Proof.
  assert (K : forall d, said (map hide d) = said d) by (induction d as [|[l t|[]] d IH]; cbn; congruence). intros d d' H. rewrite <- (K d), <- (K d'). now rewrite H.
Qed.
(** As long as the server lets both in or turns both away with one message, nothing of what is
    logged, done, written or returned depends on the password. *)
Theorem mysql_password_unseen : forall (sv : world W) low parse env env' w, same_but_password env env' ->
    (forall c c', ConnText.my_config_from_env env = Ok c -> ConnText.my_config_from_env env' = Ok c' -> on_open sv w (ConnText.to_dsn c) = on_open sv w (ConnText.to_dsn c')) ->
    let '(d, w1, r) := mysql_aloud tord rsrt fold so ord ordf srt unix rnds wd runs texts query output sv low parse env w in
    let '(d', w1', r') := mysql_aloud tord rsrt fold so ord ordf srt unix rnds wd runs texts query output sv low parse env' w in
    said d = said d' /\ map hide d = map hide d' /\ w1 = w1' /\ r = r'.
Proof.
  intros sv low parse env env' w HE HO. unfold mysql_aloud.
  assert (K : forall c, ConnText.my_config_from_env env = Ok c -> exists c', ConnText.my_config_from_env env' = Ok c' /\ ConnText.my_dbname c = ConnText.my_dbname c').
  { intros c. unfold ConnText.my_config_from_env, ConnText.get_env. rewrite !HE by discriminate. destruct (env' (lit "DB_USERNAME")); [discriminate|]. destruct (env' (lit "DB_DATABASE")); [discriminate|].
    cbn. intros E. injection E as <-. eexists. split; [reflexivity|reflexivity]. }
  assert (KE : (forall c, ConnText.my_config_from_env env <> Ok c) -> ConnText.my_config_from_env env = ConnText.my_config_from_env env').
  { unfold ConnText.my_config_from_env, ConnText.get_env. rewrite !HE by discriminate. destruct (env' (lit "DB_USERNAME")); [reflexivity|]. destruct (env' (lit "DB_DATABASE")); [reflexivity|].
    cbn. intros E. now elim (E _ eq_refl). }
  destruct (ConnText.my_config_from_env env) as [c|m|].
  - destruct (K c eq_refl) as (c' & E' & EN). rewrite E'. unfold nthen. cbn [quiet give map].
    pose proof (connected_same sv (ConnText.to_dsn c) (ConnText.to_dsn c') (mysql_cmd_aloud tord rsrt fold so ord ordf srt unix rnds wd runs texts query output sv low parse (ConnText.my_dbname c)) w (HO _ _ eq_refl E')) as S1.
    rewrite <- EN. cbn [app] in *. destruct (connected_aloud sv (ConnText.to_dsn c) _ w) as [[d w1] r]. destruct (connected_aloud sv (ConnText.to_dsn c') _ w) as [[d' w1'] r'].
    destruct S1 as (S1 & S2 & S3). cbn. repeat apply conj; auto. now apply hide_said.
  - rewrite <- (KE ltac:(congruence)). cbn. auto.
  - rewrite <- (KE ltac:(congruence)). cbn. auto.
Qed.
Theorem pg_password_unseen : forall (sv : world W) norm parse env env' w, same_but_password env env' ->
    (forall c c', ConnText.pg_config_from_env env = Ok c -> ConnText.pg_config_from_env env' = Ok c' -> on_open sv w (ConnText.kv_connection_string c) = on_open sv w (ConnText.kv_connection_string c')) ->
    let '(d, w1, r) := pg_aloud tord rsrt fold so ord ordf srt unix rnds wd runs texts query output sv norm parse env w in
    let '(d', w1', r') := pg_aloud tord rsrt fold so ord ordf srt unix rnds wd runs texts query output sv norm parse env' w in
    said d = said d' /\ map hide d = map hide d' /\ w1 = w1' /\ r = r'.
Proof.
  intros sv norm parse env env' w HE HO. unfold pg_aloud.
  assert (K : forall c, ConnText.pg_config_from_env env = Ok c -> exists c', ConnText.pg_config_from_env env' = Ok c' /\ ConnText.search_path_or_public c = ConnText.search_path_or_public c').
  { intros c. unfold ConnText.pg_config_from_env, ConnText.get_env. rewrite !HE by discriminate. destruct (env' (lit "DB_USERNAME")); [discriminate|]. destruct (env' (lit "DB_DATABASE")); [discriminate|].
    cbn. intros E. injection E as <-. eexists. split; [reflexivity|]. unfold ConnText.search_path_or_public. cbn [ConnText.pg_search_path]. assert (K1 : env (lit "DB_SEARCH_PATH") = env' (lit "DB_SEARCH_PATH")) by (apply HE; discriminate). cbn in K1. rewrite K1. reflexivity. }
  assert (KE : (forall c, ConnText.pg_config_from_env env <> Ok c) -> ConnText.pg_config_from_env env = ConnText.pg_config_from_env env').
  { unfold ConnText.pg_config_from_env, ConnText.get_env. rewrite !HE by discriminate. destruct (env' (lit "DB_USERNAME")); [reflexivity|]. destruct (env' (lit "DB_DATABASE")); [reflexivity|].
    cbn. intros E. now elim (E _ eq_refl). }
  destruct (ConnText.pg_config_from_env env) as [c|m|].
  - destruct (K c eq_refl) as (c' & E' & EN). rewrite E'. unfold nthen. cbn [quiet give map].
    pose proof (connected_same sv (ConnText.kv_connection_string c) (ConnText.kv_connection_string c') (pg_cmd_aloud tord rsrt fold so ord ordf srt unix rnds wd runs texts query output sv norm parse (ConnText.search_path_or_public c)) w (HO _ _ eq_refl E')) as S1.
    rewrite <- EN. cbn [app] in *. destruct (connected_aloud sv (ConnText.kv_connection_string c) _ w) as [[d w1] r]. destruct (connected_aloud sv (ConnText.kv_connection_string c') _ w) as [[d' w1'] r'].
    destruct S1 as (S1 & S2 & S3). cbn. repeat apply conj; auto. now apply hide_said.
  - rewrite <- (KE ltac:(congruence)). cbn. auto.
  - rewrite <- (KE ltac:(congruence)). cbn. auto.
Qed.
End Password.
Print Assumptions transport_faithful.
Print Assumptions secret_unseen.
Print Assumptions url_shown.
Print Assumptions mysql_password_unseen.
Print Assumptions pg_password_unseen.
