(** C49, C74: connection texts and configuration. *)
From Coq Require Import String List NArith Bool Lia Arith.
From Verif Require Import Base ConnText ConnTextSpec ConnTextProofs.
Import ListNotations.
Local Open Scope string_scope.
Local Open Scope list_scope.

(** ** C49 *)
(** The driver reads exactly the configured values, then the additional parameters, then
    that TLS is off, if no value has a quote or backslash ... *)
Theorem connection_string_decodes : forall c params,
    (forall k v, In (k, v) (set_fields c) -> unescaped v) ->
    pg_param_text c = [] /\ params = [] \/ complete (pg_param_text c) params ->
    settings (kv_connection_string c) = Some (set_fields c ++ params ++ [(lit "sslmode", lit "disable")]).
Proof.
  intros c params HV HP. rewrite kv_text. change (settings ?x) with (settings_from Start x). rewrite fields_forward; [|apply set_fields_keys|exact HV].
  unfold tail_text. destruct (pg_param_text c) as [|x p].
  - assert (params = []) as ->.
    { destruct HP as [[_ ->]|[HP _]]; [reflexivity|]. now injection HP. }
    change (settings_from Start (lit "sslmode=disable")) with (settings (lit "sslmode=disable")). now rewrite ssl_settings.
  - destruct HP as [[HP _]|HP]; [discriminate|]. now rewrite (tail_settings _ _ HP).
Qed.
(** ... and only then. *)
Theorem connection_string_exact : forall c rest,
    settings (kv_connection_string c) = Some (set_fields c ++ rest) -> forall k v, In (k, v) (set_fields c) -> unescaped v.
Proof.
  intros c rest H. rewrite kv_text in H. change (settings ?x) with (settings_from Start x) in H.
  apply fields_backward in H; [|apply set_fields_keys]. exact (proj1 H).
Qed.
Definition ex_pg : pg_config := mk_pg (lit "root") (lit "p@ss word=1") (lit "db") [] (lit "app") [] (lit "connect_timeout = 10 fallback_application_name='x y'").
Example connection_string_decodes_ex :
    (forall k v, In (k, v) (set_fields ex_pg) -> unescaped v) /\
    complete (pg_param_text ex_pg) [(lit "connect_timeout", lit "10"); (lit "fallback_application_name", lit "x y")] /\
    settings (kv_connection_string ex_pg) = Some [(lit "user", lit "root"); (lit "password", lit "p@ss word=1"); (lit "host", lit "db"); (lit "dbname", lit "app");
      (lit "connect_timeout", lit "10"); (lit "fallback_application_name", lit "x y"); (lit "sslmode", lit "disable")].
Proof.
  split; [|split; [split; vm_compute; [reflexivity|exact I]|vm_compute; reflexivity]].
  intros k v H. cbn in H. repeat (destruct H as [H|H]; [injection H as <- <-; split; cbn; intuition discriminate|]). destruct H.
Qed.
Print Assumptions connection_string_decodes.
Print Assumptions connection_string_exact.
(** In force are the configured values unless a parameter sets the same key, and no TLS
    whatever the parameters say. *)
Theorem connection_values_in_force : forall c params l,
    (forall k v, In (k, v) (set_fields c) -> unescaped v) ->
    pg_param_text c = [] /\ params = [] \/ complete (pg_param_text c) params ->
    settings (kv_connection_string c) = Some l ->
    setting l (lit "sslmode") = Some (lit "disable") /\
    (forall k, k <> lit "sslmode" -> setting l k = match setting params k with Some v => Some v | None => setting (set_fields c) k end) /\
    (setting params (lit "user") = None -> pg_user c <> [] -> setting l (lit "user") = Some (pg_user c)) /\
    (setting params (lit "password") = None -> pg_password c <> [] -> setting l (lit "password") = Some (pg_password c)) /\
    (setting params (lit "host") = None -> pg_host c <> [] -> setting l (lit "host") = Some (pg_host c)) /\
    (setting params (lit "port") = None -> pg_port c <> [] -> setting l (lit "port") = Some (pg_port c)) /\
    (setting params (lit "dbname") = None -> pg_dbname c <> [] -> setting l (lit "dbname") = Some (pg_dbname c)).
Proof.
  intros c params l HV HP H. rewrite (connection_string_decodes c params HV HP) in H. injection H as <-.
  assert (K : forall k, k <> lit "sslmode" -> setting (set_fields c ++ params ++ [(lit "sslmode", lit "disable")]) k =
            match setting params k with Some v => Some v | None => setting (set_fields c) k end).
  { intros k Hk. rewrite !setting_app. cbn [setting]. destruct (seqb k (lit "sslmode")) eqn:E; [apply seqb_eq in E; contradiction|]. reflexivity. }
  assert (F : forall k v, setting (set_fields c) k = Some v -> setting params k = None -> k <> lit "sslmode" -> setting (set_fields c ++ params ++ [(lit "sslmode", lit "disable")]) k = Some v).
  { intros k v E N Hk. now rewrite (K k Hk), N. }
  split; [rewrite !setting_app; reflexivity|]. split; [exact K|].
  assert (G : (pg_user c <> [] -> setting (set_fields c) (lit "user") = Some (pg_user c)) /\
              (pg_password c <> [] -> setting (set_fields c) (lit "password") = Some (pg_password c)) /\
              (pg_host c <> [] -> setting (set_fields c) (lit "host") = Some (pg_host c)) /\
              (pg_port c <> [] -> setting (set_fields c) (lit "port") = Some (pg_port c)) /\
              (pg_dbname c <> [] -> setting (set_fields c) (lit "dbname") = Some (pg_dbname c))).
  { unfold set_fields. destruct (pg_user c), (pg_password c), (pg_host c), (pg_port c), (pg_dbname c); repeat split; intros X; try congruence; reflexivity. }
  destruct G as (G1 & G2 & G3 & G4 & G5).
  repeat split; intros N X; apply F; auto; discriminate.
Qed.
Print Assumptions connection_values_in_force.
(** A quote in the password sets the host; a backslash is lost; asking for TLS has no
    effect; a parameter text ending in an equal sign takes the TLS setting as value. *)
Theorem connection_string_refuted :
    settings (kv_connection_string (mk_pg (lit "u") (lit "p' host='evil") [] [] (lit "d") [] [])) =
      Some [(lit "user", lit "u"); (lit "password", lit "p"); (lit "host", lit "evil"); (lit "dbname", lit "d"); (lit "sslmode", lit "disable")] /\
    settings (kv_connection_string (mk_pg (lit "u") (lit "a\b") [] [] (lit "d") [] [])) =
      Some [(lit "user", lit "u"); (lit "password", lit "ab"); (lit "dbname", lit "d"); (lit "sslmode", lit "disable")] /\
    settings (kv_connection_string (mk_pg (lit "u") (lit "a\") [] [] (lit "d") [] [])) = None /\
    (exists l, settings (kv_connection_string (mk_pg (lit "u") [] [] [] (lit "d") [] (lit "sslmode=require"))) = Some l /\ setting l (lit "sslmode") = Some (lit "disable")) /\
    settings (kv_connection_string (mk_pg (lit "u") [] [] [] (lit "d") [] (lit "options="))) =
      Some [(lit "user", lit "u"); (lit "dbname", lit "d"); (lit "options", lit "sslmode=disable")].
Proof.
  split; [vm_compute; reflexivity|]. split; [vm_compute; reflexivity|]. split; [vm_compute; reflexivity|].
  split; [eexists; split; vm_compute; reflexivity|]. vm_compute. reflexivity.
Qed.
Print Assumptions connection_string_refuted.
(** Configurations come from the environment: user and database are required, in this order. *)
Theorem pg_config_exact : forall env,
    (env (lit "DB_USERNAME") = [] -> pg_config_from_env env = Err (lit "env: DB_USERNAME is not set")) /\
    (env (lit "DB_USERNAME") <> [] -> env (lit "DB_DATABASE") = [] -> pg_config_from_env env = Err (lit "env: DB_DATABASE is not set")) /\
    (forall c, pg_config_from_env env = Ok c <->
       env (lit "DB_USERNAME") <> [] /\ env (lit "DB_DATABASE") <> [] /\
       pg_user c = env (lit "DB_USERNAME") /\ pg_password c = env (lit "DB_PASSWORD") /\ pg_host c = env (lit "DB_HOST") /\
       pg_port c = env (lit "DB_PORT") /\ pg_dbname c = env (lit "DB_DATABASE") /\ pg_search_path c = env (lit "DB_SEARCH_PATH") /\
       pg_param_text c = env (lit "DB_PARAM_TEXT")).
Proof.
  intros env. unfold pg_config_from_env, get_env. split; [intros ->; reflexivity|]. split.
  - intros Hu ->. destruct (env (lit "DB_USERNAME")); [congruence|reflexivity].
  - intros c. destruct (env (lit "DB_USERNAME")) as [|u us]; cbn [obind].
    + split; [discriminate|]. intros (X & _). congruence.
    + destruct (env (lit "DB_DATABASE")) as [|d ds]; cbn [obind].
      * split; [discriminate|]. intros (_ & X & _). congruence.
      * split.
        -- intros X. injection X as <-. cbn. repeat split; discriminate.
        -- intros (_ & _ & E1 & E2 & E3 & E4 & E5 & E6 & E7). destruct c. cbn in *. now subst.
Qed.
Print Assumptions pg_config_exact.

(** ** C74 *)
(** The data source name is read back exactly for names the driver can carry, whatever
    the password, and only for them. *)
Theorem dsn_exact : forall c, my_user c <> [] -> my_net c <> [] ->
    (dsn_means (to_dsn c) c <->
     ~ In 58%N (my_user c) /\ ~ In 40%N (my_net c) /\ ~ In 64%N (my_net c) /\ ~ In 64%N (my_addr c) /\
     ~ In 47%N (my_dbname c) /\ ~ In 63%N (my_dbname c) /\ ~ In 47%N (my_param_text c)).
Proof.
  intros c Hu Hn. rewrite (to_dsn_parts c Hu Hn). split.
  - intros H. inversion H as [l r x N L R E]; subst x.
    apply (last_mark 47 l r) in E; [|exact N]. destruct E as [Er K].
    assert (X : length (w_db c) <= length r).
    { unfold w_db. rewrite app_length. destruct (right_part_length _ _ _ R) as [[-> ->]| ->]; [simpl; lia|]. destruct (my_param_text c); simpl; lia. }
    destruct (K X) as [-> ->]. clear K X Er.
    assert (D63 : ~ In 63%N (my_dbname c)) by (inversion R; subst; assumption).
    inversion L as [up np u p n a N2 U P E|np n a N2 P E]; [subst u p n a|congruence].
    apply (last_mark 64 up np) in E; [|exact N2]. destruct E as [Er K].
    assert (X : length (w_net c) <= length np).
    { unfold w_net. rewrite app_length. destruct (net_part_length _ _ _ P) as [[-> ->]| ->]; [simpl; lia|]. destruct (my_addr c); simpl; rewrite ?app_length; simpl; lia. }
    destruct (K X) as [-> ->]. clear K X Er.
    unfold w_net, w_db in N, N2. rewrite in_app_iff in N, N2.
    split; [inversion U; subst; assumption|]. split; [inversion P; subst; assumption|]. split; [tauto|]. split; [|split; [tauto|split; [exact D63|]]].
    + intros C. apply N2. right. destruct (my_addr c) as [|x a]; [destruct C|]. right. apply (in_or_app (x :: a)). left. exact C.
    + intros C. apply N. right. destruct (my_param_text c) as [|x a]; [destruct C|]. right. exact C.
  - intros (H1 & H2 & H3 & H4 & H5 & H6 & H7). constructor.
    + unfold w_db. rewrite in_app_iff. intros [C|C]; [contradiction|]. destruct (my_param_text c) as [|x p]; [destruct C|]. destruct C as [C|C]; [discriminate|contradiction].
    + constructor.
      * unfold w_net. rewrite in_app_iff. intros [C|C]; [contradiction|]. destruct (my_addr c) as [|x a]; [destruct C|].
        destruct C as [C|C]; [discriminate|]. apply (in_app_or (x :: a)) in C. destruct C as [C|[C|[]]]; [contradiction|discriminate].
      * unfold w_user. destruct (my_password c) as [|x p]; [rewrite app_nil_r; now constructor|now constructor].
      * unfold w_net. destruct (my_addr c) as [|x a]; [rewrite app_nil_r; now constructor|now constructor].
    + unfold w_db. destruct (my_param_text c) as [|x p]; [rewrite app_nil_r; now constructor|now constructor].
Qed.
(** A data source name has one meaning. *)
Theorem dsn_unambiguous : forall d c c', dsn_means d c -> dsn_means d c' -> c = c'.
Proof. exact dsn_means_fun. Qed.
Definition ex_my : my_config := mk_my (lit "root") (lit "p:a/s@s?(") (lit "tcp") (lit "127.0.0.1:3306") (lit "app") (lit "tls=true&x=a?b").
Example dsn_exact_ex : to_dsn ex_my = lit "root:p:a/s@s?(@tcp(127.0.0.1:3306)/app?tls=true&x=a?b" /\ dsn_means (to_dsn ex_my) ex_my.
Proof.
  split; [vm_compute; reflexivity|]. apply dsn_exact; [discriminate|discriminate|]. cbn. intuition discriminate.
Qed.
Print Assumptions dsn_exact.
Print Assumptions dsn_unambiguous.
(** A slash in the parameters makes the driver look for the database there. *)
Theorem dsn_refuted :
    let c := mk_my (lit "root") [] (lit "tcp") [] (lit "app") (lit "loc=Asia/Tokyo") in
    exists c', dsn_means (to_dsn c) c' /\ my_dbname c' = lit "Tokyo" /\ my_net c' = lit "tcp/app?loc=Asia".
Proof.
  cbv zeta. exists (mk_my (lit "root") [] (lit "tcp/app?loc=Asia") [] (lit "Tokyo") []). split; [|split; reflexivity].
  apply (dsn (lit "root@tcp/app?loc=Asia") (lit "Tokyo")).
  - cbn. intuition discriminate.
  - apply (left_user (lit "root") (lit "tcp/app?loc=Asia")); [cbn; intuition discriminate| |]; constructor; cbn; intuition discriminate.
  - constructor. cbn. intuition discriminate.
Qed.
Print Assumptions dsn_refuted.
(** The MySQL configuration: TCP unless another protocol is named. *)
Theorem my_config_exact : forall env,
    (env (lit "DB_USERNAME") = [] -> my_config_from_env env = Err (lit "env: DB_USERNAME is not set")) /\
    (env (lit "DB_USERNAME") <> [] -> env (lit "DB_DATABASE") = [] -> my_config_from_env env = Err (lit "env: DB_DATABASE is not set")) /\
    (forall c, my_config_from_env env = Ok c <->
       env (lit "DB_USERNAME") <> [] /\ env (lit "DB_DATABASE") <> [] /\
       my_user c = env (lit "DB_USERNAME") /\ my_password c = env (lit "DB_PASSWORD") /\ my_addr c = env (lit "DB_ADDRESS") /\
       (env (lit "DB_PROTOCOL") = [] /\ my_net c = lit "tcp" \/ env (lit "DB_PROTOCOL") <> [] /\ my_net c = env (lit "DB_PROTOCOL")) /\
       my_dbname c = env (lit "DB_DATABASE") /\ my_param_text c = env (lit "DB_PARAM_TEXT")).
Proof.
  intros env. unfold my_config_from_env, get_env. split; [intros ->; reflexivity|]. split.
  - intros Hu ->. destruct (env (lit "DB_USERNAME")); [congruence|reflexivity].
  - intros c. destruct (env (lit "DB_USERNAME")) as [|u us]; cbn [obind].
    + split; [discriminate|]. intros (X & _). congruence.
    + destruct (env (lit "DB_DATABASE")) as [|d ds]; cbn [obind].
      * split; [discriminate|]. intros (_ & X & _). congruence.
      * split.
        -- intros X. destruct (env (lit "DB_PROTOCOL")); injection X as <-; cbn [my_user my_password my_net my_addr my_dbname my_param_text]; repeat split; try discriminate; [left|right]; split; try reflexivity; discriminate.
        -- intros (_ & _ & E1 & E2 & E3 & E4 & E5 & E6). destruct c as [cu cp cn ca cd ct]. cbn [my_user my_password my_net my_addr my_dbname my_param_text] in *. subst. f_equal. f_equal.
           destruct E4 as [[-> ->]|[N ->]]; [reflexivity|]. destruct (env (lit "DB_PROTOCOL")); [congruence|reflexivity].
Qed.
Definition ex_env (k : gostring) : gostring :=
  if seqb k (lit "DB_USERNAME") then lit "root" else if seqb k (lit "DB_DATABASE") then lit "app" else [].
Example my_config_exact_ex : my_config_from_env ex_env = Ok (mk_my (lit "root") [] (lit "tcp") [] (lit "app") []) /\
    pg_config_from_env ex_env = Ok (mk_pg (lit "root") [] [] [] (lit "app") [] []).
Proof. split; vm_compute; reflexivity. Qed.
Print Assumptions my_config_exact.
(** Hasura: address and secret are required; an address that is no URL is named. *)
Theorem hasura_config_exact : forall (url : Type) (parse : gostring -> outcome url) env,
    (env (lit "HASURA_URL") = [] -> hasura_config_from_env parse env = Err (lit "env: HASURA_URL is not set")) /\
    (forall m, env (lit "HASURA_URL") <> [] -> parse (env (lit "HASURA_URL")) = Err m ->
       hasura_config_from_env parse env = Err (lit "cannot parse URL for Hasura: " ++ env (lit "HASURA_URL") ++ lit ": " ++ m)) /\
    (forall u, env (lit "HASURA_URL") <> [] -> parse (env (lit "HASURA_URL")) = Ok u -> env (lit "HASURA_ADMIN_SECRET") = [] ->
       hasura_config_from_env parse env = Err (lit "env: HASURA_ADMIN_SECRET is not set")) /\
    (forall u, env (lit "HASURA_URL") <> [] -> parse (env (lit "HASURA_URL")) = Ok u -> env (lit "HASURA_ADMIN_SECRET") <> [] ->
       hasura_config_from_env parse env = Ok (mk_hasura u (env (lit "HASURA_ADMIN_SECRET")))).
Proof.
  intros url parse env. unfold hasura_config_from_env, get_env. split; [intros ->; reflexivity|].
  destruct (env (lit "HASURA_URL")) as [|x l]; [repeat split; intros; congruence|]. cbn [obind].
  split; [intros m _ ->; reflexivity|]. split; [intros u _ -> ->; reflexivity|]. intros u _ -> H. cbn [obind]. destruct (env (lit "HASURA_ADMIN_SECRET")); [congruence|reflexivity].
Qed.
Print Assumptions hasura_config_exact.
