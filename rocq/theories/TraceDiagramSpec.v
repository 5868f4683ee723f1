(** What a folded tree and a diagram text stand for. *)
From Coq Require Import String List NArith ZArith Bool Lia Arith.
From Verif Require Import Base Dec ExplainTree Otel TraceDiagram.
Import ListNotations.

(** The tree of calls: who was called, in order. *)
Inductive calls := Call (service : gostring) (inner : list calls).
Fixpoint calls_of (t : tree vm_span) : calls := match t with Node v cs => Call (v_service v) (map calls_of cs) end.
(** What a drawn node stands for. *)
Fixpoint expand (n : dnode) : list calls :=
  match n with
  | DNode s cs => [Call s (flat_map expand cs)]
  | DRepeat k s => repeat (Call s []) k
  end.

(** A node drawn somewhere in a tree. *)
Inductive drawn_in : dnode -> dnode -> Prop :=
| drawn_here : forall n, drawn_in n n
| drawn_below : forall n s cs c, In c cs -> drawn_in n c -> drawn_in n (DNode s cs).
(** A node that stands for calls of the service that call nothing themselves. *)
Definition stands_for (s : gostring) (n : dnode) : Prop := n = DNode s [] \/ exists k, n = DRepeat k s.

(** ** Reading a diagram *)
(** The lines of a text; the last line is not ended. *)
Fixpoint lines_of (acc s : gostring) : list gostring :=
  match s with
  | [] => [acc]
  | c :: s' => if N.eqb c 10 then acc :: lines_of [] s' else lines_of (acc ++ [c]) s'
  end.
(** Before and after the first occurrence of a mark. *)
Fixpoint starts (p s : gostring) : option gostring :=
  match p, s with
  | [], _ => Some s
  | x :: p', y :: s' => if N.eqb x y then starts p' s' else None
  | _, [] => None
  end.
Fixpoint cut (mark s : gostring) : option (gostring * gostring) :=
  match starts mark s with
  | Some r => Some ([], r)
  | None => match s with
            | [] => None
            | c :: s' => match cut mark s' with Some (a, b) => Some (c :: a, b) | None => None end
            end
  end.
Inductive event := Msg (from to text : gostring) | Act (s : gostring) | Deact (s : gostring).
Definition read_line (l : gostring) : option event :=
  match cut (lit "->>") l with
  | Some (a, r) => match cut (lit ": ") r with Some (b, t) => Some (Msg a b t) | None => None end
  | None =>
      match starts (lit "activate ") l with
      | Some x => Some (Act x)
      | None => match starts (lit "deactivate ") l with Some x => Some (Deact x) | None => None end
      end
  end.
Fixpoint read_lines (ls : list gostring) : option (list event) :=
  match ls with
  | [] => None
  | [l] => match l with [] => Some [] | _ => None end
  | l :: ls' => match read_line l, read_lines ls' with Some e, Some es => Some (e :: es) | _, _ => None end
  end.

(** ** Activations: a stack machine *)
Fixpoint balanced (stack : list gostring) (es : list event) : Prop :=
  match es with
  | [] => stack = []
  | Msg _ _ _ :: es' => balanced stack es'
  | Act s :: es' => balanced (s :: stack) es'
  | Deact s :: es' => match stack with t :: stack' => s = t /\ balanced stack' es' | [] => False end
  end.

(** ** The calls that a list of events shows.
    The stack holds the active services and the calls they made so far, the last first.
    A message followed by an activation opens a call, one followed by a deactivation
    returns from it, any other one is a call without inner calls, or, with the text
    More k times..., k such calls with one or two messages without text after it. *)
Definition repeat_text (t : gostring) : option nat :=
  match starts (lit "More ") t with
  | Some r => match cut (lit " times...") r with
              | Some (d, []) => if (forallb is_digit d)%bool then Some (N.to_nat (digits_val 0 d)) else None
              | _ => None
              end
  | None => None
  end.
Fixpoint decode (stack : list (gostring * list calls)) (fill : option (gostring * nat)) (es : list event)
  : option calls :=
  match fill with
  | Some (b, S k) =>
      match es, stack with
      | Msg a' b' [] :: es', (s, _) :: _ =>
          if (seqb a' s && seqb b' b)%bool then decode stack (match k with 0 => None | _ => Some (b, k) end) es' else None
      | _, _ => None
      end
  | _ =>
      match es with
      | [] => match stack with [(s, done)] => Some (Call s (rev done)) | _ => None end
      | Msg a b t :: Act x :: es' =>
          match stack with
          | (s, _) :: _ => if (seqb a s && seqb b x && seqb t x)%bool then decode ((x, []) :: stack) None es' else None
          | [] => None
          end
      | Msg a b t :: Deact x :: es' =>
          match stack with
          | (s, done) :: (s2, done2) :: stack' =>
              if (seqb a s && seqb x s && seqb b s2 && seqb t s2)%bool
              then decode ((s2, Call s (rev done) :: done2) :: stack') None es' else None
          | _ => None
          end
      | Msg a b t :: es' =>
          match stack with
          | (s, done) :: stack' =>
              if seqb a s then
                match repeat_text t with
                | Some k =>
                    if Nat.ltb k 1 then None
                    else decode ((s, repeat (Call b []) k ++ done) :: stack')
                           (match Nat.min k 3 - 1 with 0 => None | f => Some (b, f) end) es'
                | None => if seqb t b then decode ((s, Call b [] :: done) :: stack') None es' else None
                end
              else None
          | [] => None
          end
      | _ => None
      end
  end.
(** The calls shown by a diagram text; the first sender is the root. *)
Definition diagram_events (text : gostring) : option (list event) :=
  match lines_of [] text with
  | first :: ls => if seqb first (lit "sequenceDiagram" ++ [13%N]) then read_lines ls else None
  | [] => None
  end.
Definition diagram_calls (text : gostring) : option calls :=
  match diagram_events text with
  | Some (Msg a b t :: es) => decode [(a, [])] None (Msg a b t :: es)
  | _ => None
  end.

(** Names that a diagram can show: no line end, no arrow, no colon and blank, not the text
    of a repetition. *)
Definition drawable (s : gostring) : Prop :=
  ~ In 10%N s /\ cut (lit "->>") s = None /\ cut (lit ": ") s = None /\ starts (lit "More ") s = None.
Fixpoint all_services (t : tree vm_span) : list gostring :=
  match t with Node v cs => v_service v :: flat_map all_services cs end.
(** The calls of a trace of the program. *)
Fixpoint span_calls (t : tree Otel.node) : calls :=
  match t with Node n cs => Call (s_service (n_span n)) (map span_calls cs) end.
Fixpoint span_services (t : tree Otel.node) : list gostring :=
  match t with Node n cs => s_service (n_span n) :: flat_map span_services cs end.
