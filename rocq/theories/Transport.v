(** The transport of every HTTP request, with the lines it logs. *)
From Coq Require Import String List NArith ZArith Bool Lia.
From Verif Require Import Base Dec Paths Diary.
Import ListNotations.

(** http.Request: what the transport and the server read of it.  [rq_url] is what URL.String
    gives.  Simplified: headers in the order they are added. *)
(** Go's net/http; no lines in /repo *)
Record http_request := { rq_method : gostring; rq_url : gostring; rq_host : gostring; rq_path : gostring;
                         rq_headers : list (gostring * gostring); rq_body : gostring }.
(** A response (its status and the rest), or an error *)
(** Go's net/http; no lines in /repo *)
Inductive http_answer (R : Type) := Response (status : N) (rest : R) | Failure (m : gostring).
Arguments Response {R}. Arguments Failure {R}.
Section Transport.
  (** [inner] is http.DefaultTransport with the milliseconds it takes; [quote] is %q *)
  Context {W R : Type} (inner : W -> http_request -> W * Z * http_answer R) (quote : gostring -> gostring).
  (** lib/http_transport.go:17-33 RoundTrip *)
  Definition round_trip (w : W) (rq : http_request) : list (entry http_request) * W * http_answer R :=
    let out := Said Debug (lit "[http] --> " ++ rq_method rq ++ lit " " ++ rq_url rq) in
    let '(w1, ms, a) := inner w rq in
    let place := lit "method=" ++ rq_method rq ++ lit " host=" ++ rq_host rq ++ lit " path=" ++ rq_path rq in
    let back := match a with
      | Failure m => lit "[http] <-- ERROR " ++ place ++ lit " status=error durationMs=" ++ int_text ms ++ lit " error=" ++ quote m
      | Response status _ => lit "[http] <-- " ++ place ++ lit " status=" ++ dec_of_N status ++ lit " durationMs=" ++ int_text ms
      end in
    ([out; Did rq; Said Debug back], w1, a).
End Transport.
(** infra/hasura/client.go:26-33, 119-131: the request for a path; [parsed] is url.Parse of the
    resolved URL: its text, host and path *)
Definition hasura_request (parsed : gostring -> gostring * gostring * gostring) (base : base_url) (secret pathname body : gostring) : http_request :=
  let '(text, host, path) := parsed (resolve_url base pathname) in
  {| rq_method := lit "POST"; rq_url := text; rq_host := host; rq_path := path;
     rq_headers := [(lit "x-hasura-admin-secret", secret)]; rq_body := body |}.
