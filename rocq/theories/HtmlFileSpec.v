(** What a browser finds in a page, and what a user may expect of a file. *)
From Coq Require Import String List NArith ZArith QArith Bool.
From Verif Require Import Base Json JsonSpec HandOver HandOverSpec HtmlFile.
Import ListNotations.
Local Open Scope nat_scope.

(** ** Elements of raw text, after the HTML standard: from a start tag to the first end
    tag of the same name.  Start tags with attributes are not read, nor are the escaped
    states that an opening of a comment begins inside a script. *)
Definition lowered (c : rune) : rune := if (N.leb 65 c && N.leb c 90)%bool then (c + 32)%N else c.
Fixpoint after (p s : gostring) : option gostring :=
  match p, s with
  | [], _ => Some s
  | x :: p', y :: s' => if N.eqb x (lowered y) then after p' s' else None
  | _ :: _, [] => None
  end.
Definition ends_name (c : rune) : bool := existsb (N.eqb c) [9; 10; 12; 13; 32; 47; 62]%N.
Definition closes (name s : gostring) : bool :=
  match after (of_string "</" ++ name) s with Some (c :: _) => ends_name c | _ => false end.
Fixpoint raw_text (name s : gostring) : option (gostring * gostring) :=
  if closes name s then Some ([], s)
  else match s with
       | [] => None
       | c :: s' => match raw_text name s' with Some (t, r) => Some (c :: t, r) | None => None end
       end.
Definition opens (s : gostring) : option (gostring * gostring) :=
  match after (of_string "<script>") s with
  | Some r => Some (of_string "script", r)
  | None => match after (of_string "<style>") s with Some r => Some (of_string "style", r) | None => None end
  end.
(** The elements that are closed; [n] bounds the steps *)
Fixpoint elements_in (n : nat) (s : gostring) : list (gostring * gostring) :=
  match n with
  | 0 => []
  | S n' =>
      match opens s with
      | Some (name, r) =>
          match raw_text name r with
          | Some (t, r') => (name, t) :: elements_in n' r'
          | None => []
          end
      | None => match s with [] => [] | _ :: s' => elements_in n' s' end
      end
  end.
Definition elements (s : gostring) : list (gostring * gostring) := elements_in (length s) s.

(** A bundle that stays inside its element *)
Definition stays_in (name t : gostring) : Prop := forall a b, t = a ++ b -> after (of_string "</" ++ name) b = None.
Definition starts_with (p s : gostring) : Prop := exists r, s = p ++ r.

(** ** The report as a file *)
Section Report.
  Context (num_value : gostring -> option Q) (format : gostring -> outcome gostring) (h : host).
  Definition asset_path (b : build_option) (ending : string) : gostring :=
    of_string "client/dist/assets/" ++ (match b with BoJaeger _ => of_string "mermaid" | _ => of_string "main" end) ++ of_string ending.
  Definition asset_fits (b : build_option) : Prop :=
    (forall t, ho_asset h (asset_path b ".js") = inl t -> stays_in (of_string "script") t) /\
    (forall t, ho_asset h (asset_path b ".css") = inl t -> stays_in (of_string "style") t).
  (** The browser finds a script, a style and a script: the first gives the page its data,
      the others are the bundle of the page. *)
  Definition is_report (b : build_option) (text : gostring) : Prop :=
    exists code style script v p,
      elements text = [(of_string "script", code); (of_string "style", style); (of_string "script", script)] /\
      ho_asset h (asset_path b ".js") = inl script /\ ho_asset h (asset_path b ".css") = inl style /\
      script_value num_value code = Some v /\ open_page format (bundle_of b) v = Ok p /\ page_shows format b p.
  (** The disk behind a try to write the report of [b] that answered [e] *)
  Definition report_try (path : gostring) (b : build_option) (d d' : disk) (e : option gostring) : Prop :=
    (forall q, q <> path -> d' q = d q) /\
    match e with
    | None => exists text, d' path = Some text /\ is_report b text
    | Some m =>
        (d' path = d path /\ (starts_with (of_string "failed to open file: ") m \/ starts_with (of_string "failed to create html file: ") m)) \/
        (starts_with (of_string "failed to write template to html: ") m /\
         exists part rest, d' path = Some part /\ is_report b (part ++ rest))
    end.
End Report.
