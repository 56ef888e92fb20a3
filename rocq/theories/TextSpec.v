(** * TextSpec: what styled text means, independently of how it is computed.

    A styled text is a list of characters, each with the text state it is to be
    shown in. *)
From Verif Require Import Base Num Fonts State Style.
Open Scope nat_scope.

Section Spec.
Context {NUM : Num}.

Definition schar : Type := char * state.
Definition styled_str (t : str) (s : state) : list schar := map (fun c => (c, s)) t.

(** executing commands in order *)
Definition apply_all (l : list command) (s : state) : state :=
  fold_left (fun s c => apply c s) l s.

(** The meaning of passages: execute the command, then the text stands in the
    state reached. *)
Fixpoint styled (ps : list passage) (s : state) : list schar :=
  match ps with
  | [] => []
  | (c, t) :: r => let s' := apply c s in styled_str t s' ++ styled r s'
  end.
Definition end_state (ps : list passage) (s : state) : state := apply_all (map fst ps) s.
Definition text_of (ps : list passage) : str := concat (map snd ps).

(** The meaning of nested spans: each string is shown in the style obtained by
    stacking the styles of the enclosing spans on the base style. *)
Fixpoint span_strings (base : full) (i : item) : list (str * full) :=
  match i with
  | IStr s => [(s, base)]
  | ISpan st content => flat_map (span_strings (full_or base st)) content
  end.

(** Executing passages string by string: each string with the state it stands in. *)
Fixpoint run_passages (ps : list passage) (s : state) : list (str * state) :=
  match ps with
  | [] => []
  | (c, t) :: r => let s' := apply c s in (t, s') :: run_passages r s'
  end.
Definition strings_at (l : list (str * full)) : list (str * state) :=
  map (fun p => (fst p, as_state (snd p))) l.

(** Lines: cut styled text at LF or CRLF (within one passage). *)
Fixpoint cut (t : str) (s : state) : list (list schar) :=
  match t with
  | [] => [[]]
  | c :: r =>
      if (c =? 10)%N then [] :: cut r s
      else if ((c =? 13) && match r with d :: _ => d =? 10 | [] => false end)%N then cut r s
      else match cut r s with
           | l :: ls => ((c, s) :: l) :: ls
           | [] => [[(c, s)]]
           end
  end.
Fixpoint glue {A} (a b : list (list A)) : list (list A) :=
  match a, b with
  | [], _ => b
  | [l], m :: b' => (l ++ m) :: b'
  | l :: a', _ => l :: glue a' b
  end.
Fixpoint spec_lines (ps : list passage) (s : state) : list (list schar) :=
  match ps with
  | [] => [[]]
  | (c, t) :: r => let s' := apply c s in glue (cut t s') (spec_lines r s')
  end.
(** The styled lines of consecutive groups of passages. *)
Fixpoint styled_groups (gs : list (list passage)) (s : state) : list (list schar) :=
  match gs with
  | [] => []
  | g :: r => styled g s :: styled_groups r (end_state g s)
  end.
End Spec.
