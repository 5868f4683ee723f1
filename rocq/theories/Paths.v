(** Model of the paths the commands build: the place of the report that is logged and
    the URLs of Hasura's end points.  path.Clean and path.Join are Go's, modelled on the
    list of the parts of a path; texts are bytes. *)
From Coq Require Import String List NArith Bool Lia Arith.
From Verif Require Import Base.
Import ListNotations.

(** One part of a path in Go's path.Clean; [st] are the parts kept, last first. *)
(** Go's path package; no lines in /repo, used at cmd/util/log.go:22 and infra/hasura/client.go:151 *)
Definition clean_part (rooted : bool) (st : list gostring) (c : gostring) : list gostring :=
  if seqb c [] || seqb c (lit ".") then st
  else if seqb c (lit "..") then
    match st with
    | [] => if rooted then [] else [c]
    | x :: st' => if seqb x (lit "..") then c :: st else st'
    end
  else c :: st.
(** Go's path package; no lines in /repo, used at cmd/util/log.go:22 and infra/hasura/client.go:151 *)
Definition is_rooted (p : gostring) : bool := match p with c :: _ => N.eqb c 47 | [] => false end.
(** path.Clean *)
(** Go's path package; no lines in /repo, used at cmd/util/log.go:22 and infra/hasura/client.go:151 *)
Definition path_clean (p : gostring) : gostring :=
  match p with
  | [] => lit "."
  | _ =>
      let st := rev (fold_left (clean_part (is_rooted p)) (split 47 p) []) in
      if is_rooted p then 47%N :: join (lit "/") st
      else match st with [] => lit "." | _ => join (lit "/") st end
  end.
(** path.Join: empty elements in front are left out *)
(** Go's path package; no lines in /repo, used at cmd/util/log.go:22 and infra/hasura/client.go:151 *)
Fixpoint drop_empty (l : list gostring) : list gostring :=
  match l with [] :: l' => drop_empty l' | _ => l end.
(** Go's path package; no lines in /repo, used at cmd/util/log.go:22 and infra/hasura/client.go:151 *)
Definition path_join (l : list gostring) : gostring :=
  match drop_empty l with [] => [] | l' => path_clean (join (lit "/") l') end.

(** cmd/util/log.go:18-23 LogResultOutputPath; [wd] is what os.Getwd gives *)
Definition logged_output (wd : option gostring) (output : gostring) : option gostring :=
  match wd with
  | None => None
  | Some w => Some (path_join [w; output])
  end.

(** url.URL: what stands before the path, the path as decoded and as written ([] if
    escaping gives it anyway), and what stands behind it *)
(** Go's net/url; no lines in /repo, used at infra/hasura/client.go:149-153 *)
Record base_url := { bu_origin : gostring; bu_path : gostring; bu_raw : gostring; bu_tail : gostring }.
(** net/url shouldEscape for paths *)
(** Go's net/url; no lines in /repo, used at infra/hasura/client.go:149-153 *)
Definition path_char (c : N) : bool :=
  (N.leb 97 c && N.leb c 122 || N.leb 65 c && N.leb c 90 || N.leb 48 c && N.leb c 57)%N || existsb (N.eqb c) (lit "-_.~$&+,/:;=@").
(** Go's net/url; no lines in /repo, used at infra/hasura/client.go:149-153 *)
Definition hex_digit (n : N) : N := (if N.ltb n 10 then 48 + n else 55 + n)%N.
(** Go's net/url; no lines in /repo, used at infra/hasura/client.go:149-153 *)
Definition escape_char (c : N) : gostring := if path_char c then [c] else [37%N; hex_digit (c / 16)%N; hex_digit (c mod 16)%N].
(** Go's net/url; no lines in /repo, used at infra/hasura/client.go:149-153 *)
Definition escape_path (p : gostring) : gostring := flat_map escape_char p.
(** net/url unescape *)
(** Go's net/url; no lines in /repo, used at infra/hasura/client.go:149-153 *)
Definition hex_value (c : N) : option N :=
  (if N.leb 48 c && N.leb c 57 then Some (c - 48)
   else if N.leb 65 c && N.leb c 70 then Some (c - 55)
   else if N.leb 97 c && N.leb c 102 then Some (c - 87) else None)%N.
(** Go's net/url; no lines in /repo, used at infra/hasura/client.go:149-153 *)
Fixpoint unescape_path (s : gostring) : option gostring :=
  match s with
  | [] => Some []
  | c :: s' =>
      if N.eqb c 37 then
        match s' with
        | a :: b :: s'' =>
            match hex_value a, hex_value b, unescape_path s'' with
            | Some x, Some y, Some r => Some (16 * x + y :: r)%N
            | _, _, _ => None
            end
        | _ => None
        end
      else match unescape_path s' with Some r => Some (c :: r) | None => None end
  end.
(** url.URL.EscapedPath: the text written is kept while it stands for the path *)
(** Go's net/url; no lines in /repo, used at infra/hasura/client.go:149-153 *)
Definition escaped_path (u : base_url) : gostring :=
  if negb (seqb (bu_raw u) []) && match unescape_path (bu_raw u) with Some p => seqb p (bu_path u) | None => false end then bu_raw u
  else if seqb (bu_path u) (lit "*") then lit "*" else escape_path (bu_path u).
(** url.URL.String *)
(** Go's net/url; no lines in /repo, used at infra/hasura/client.go:149-153 *)
Definition url_string (u : base_url) : gostring := bu_origin u ++ escaped_path u ++ bu_tail u.
(** infra/hasura/client.go:149-153 resolveURL *)
Definition resolve_url (u : base_url) (pathname : gostring) : gostring :=
  url_string {| bu_origin := bu_origin u; bu_path := path_join [bu_path u; pathname]; bu_raw := bu_raw u; bu_tail := bu_tail u |}.
(** infra/hasura/client.go:14-18 *)
Definition hasura_paths : list gostring := [lit "/v1/graphql"; lit "/v1/graphql/explain"; lit "/v2/query"].
