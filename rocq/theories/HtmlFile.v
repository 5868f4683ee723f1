(** html/html_builder.go CreateHtml with the file system it writes to. *)
From Coq Require Import String List NArith ZArith QArith Bool.
From Verif Require Import Base Json HandOver.
Import ListNotations.
Local Open Scope nat_scope.

(** The files by their paths.  Simplified: two paths are two files, and a file holds
    characters, so a write cannot end inside one. *)
(** the file system; no lines in /repo *)
Definition disk : Type := gostring -> option gostring.
(** the file system; no lines in /repo *)
Definition put (d : disk) (path text : gostring) : disk := fun q => if seqb q path then Some text else d q.

(** What the operating system does: the files of injection.ClientDist (or the error of
    fs.ReadFile), the error of os.Create, and for a write behind what the file holds
    already the error and how much was taken before it. *)
(** html_builder.go:17-24,53-65: the calls that reach the operating system *)
Record host := {
  ho_asset : gostring -> gostring + gostring;
  ho_create : disk -> gostring -> option gostring;
  ho_write : gostring -> gostring -> gostring -> option (nat * gostring) }.

(** html_builder.go:11-14 *)
Definition type_text (t : bundle) : gostring := match t with Main => lit "main" | Mermaid => lit "mermaid" end.
(** html_builder.go:26-34 up to the data, 34-36, 36-40, 40-43: the texts of the template.
    html/template leaves them as they are: they hold no comments. *)
Definition nl_ : gostring := [10%N].
(** html_builder.go:33,36 *)
Definition tab_ : gostring := [9%N].
(** html_builder.go:26-34 *)
Definition tmpl_head : gostring :=
  nl_ ++ lit "<!DOCTYPE html>" ++ nl_ ++ lit "<html lang=""en"">" ++ nl_ ++ lit "  <head>" ++ nl_ ++
  lit "    <meta charset=""UTF-8"" />" ++ nl_ ++
  lit "    <meta name=""viewport"" content=""width=device-width, initial-scale=1.0"" />" ++ nl_ ++
  lit "    <title>GravityR</title>" ++ nl_ ++ tab_ ++ lit "<script>" ++ nl_ ++ lit "      window.grParam = ".
(** html_builder.go:34-36 *)
Definition tmpl_style : gostring := nl_ ++ lit "    </script>" ++ nl_ ++ tab_ ++ lit "<style>".
(** html_builder.go:36-40 *)
Definition tmpl_body : gostring :=
  lit "</style>" ++ nl_ ++ lit "  </head>" ++ nl_ ++ lit "  <body>" ++ nl_ ++ lit "    <div id=""app""></div>" ++ nl_ ++ lit "    <script>".
(** html_builder.go:40-43 *)
Definition tmpl_end : gostring := lit "</script>" ++ nl_ ++ lit "  </body>" ++ nl_ ++ lit "</html>" ++ nl_.

Section Write.
  Variable num_text : Q -> gostring.
  (** html_builder.go:48-52: the values.  template.JS and template.CSS are written as they
      are, the data as [json_text]. *)
  Definition pieces (gr : jv) (style script : gostring) : list gostring :=
    [tmpl_head; json_text num_text gr; tmpl_style; style; tmpl_body; script; tmpl_end].
  (** text/template Execute: one write for each node, ends at the first error *)
  (** Go's text/template; no lines in /repo *)
  Fixpoint execute (wr : gostring -> gostring -> option (nat * gostring)) (sofar : gostring) (l : list gostring)
    : gostring * option gostring :=
    match l with
    | [] => (sofar, None)
    | c :: l' =>
        match wr sofar c with
        | None => execute wr (sofar ++ c) l'
        | Some (k, m) => (sofar ++ firstn k c, Some m)
        end
    end.
  (** html_builder.go:16-65 CreateHtml.  The template is constant and parses. *)
  Definition create_html (h : host) (t : bundle) (path : gostring) (gr : jv) (d : disk) : disk * option gostring :=
    match ho_asset h (lit "client/dist/assets/" ++ type_text t ++ lit ".js") with
    | inr m => (d, Some (lit "failed to open file: " ++ m))
    | inl script =>
        match ho_asset h (lit "client/dist/assets/" ++ type_text t ++ lit ".css") with
        | inr m => (d, Some (lit "failed to open file: " ++ m))
        | inl style =>
            match ho_create h d path with
            | Some m => (d, Some (lit "failed to create html file: " ++ m))
            | None =>
                let '(text, e) := execute (ho_write h path) [] (pieces gr style script) in
                (put d path text, match e with None => None | Some m => Some (lit "failed to write template to html: " ++ m) end)
            end
        end
    end.
End Write.
