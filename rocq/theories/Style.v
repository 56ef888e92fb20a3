(** * Style: styles, spans and their flattening.  /repo/src/pdfje/style.py *)
From Verif Require Import Base Gfmt Num Fonts State.
Open Scope nat_scope.

Section Style.
Context {NUM : Num}.

(** style.py 50-119: [Style]; [None] fields are unset.  ([hyphens=None] given by
    the user becomes [never_hyphenate], so the stored field is [None] only when
    unset.) *)
Record style := mkStyle {
  s_font : option typeface; s_size : option num; s_bold : option bool;
  s_italic : option bool; s_color : option rgb; s_spacing : option num;
  s_hyphens : option N }.
(** style.py 203-204: [Style.EMPTY] *)
Definition style_empty : style := mkStyle None None None None None None None.

(** style.py 277-278: [_fallback]; [x or y] on typefaces and colours is the same
    thing, as these are never falsy ([RGB] has length 3) *)
Definition fallback {A} (a : option A) (b : A) : A := match a with Some x => x | None => b end.
Definition ofallback {A} (a b : option A) : option A := match a with Some x => Some x | None => b end.

(** style.py 130-140: [Style.__or__] with a [Style] *)
Definition style_or (a b : style) : style :=
  mkStyle (ofallback (s_font b) (s_font a)) (ofallback (s_size b) (s_size a))
          (ofallback (s_bold b) (s_bold a)) (ofallback (s_italic b) (s_italic a))
          (ofallback (s_color b) (s_color a)) (ofallback (s_spacing b) (s_spacing a))
          (ofallback (s_hyphens b) (s_hyphens a)).

(** style.py 206: [StyleLike] without hex strings (see Common.v for their
    parsing), 165-176 [Style.parse], 141-146 [Style.__or__] with those *)
Inductive stylelike := SLStyle (s : style) | SLColor (c : rgb) | SLFont (t : typeface).
Definition style_parse (s : stylelike) : style :=
  match s with
  | SLStyle s => s
  | SLColor c => mkStyle None None None None (Some c) None None
  | SLFont t => mkStyle (Some t) None None None None None None
  end.
Definition style_or_like (a : style) (b : stylelike) : style :=
  match b with
  | SLStyle s => style_or a s
  | SLFont t => mkStyle (Some t) (s_size a) (s_bold a) (s_italic a) (s_color a) (s_spacing a) (s_hyphens a)
  | SLColor c => mkStyle (s_font a) (s_size a) (s_bold a) (s_italic a) (Some c) (s_spacing a) (s_hyphens a)
  end.

(** style.py 217-225: [StyleFull] *)
Record full := mkFull {
  fs_font : typeface; fs_size : num; fs_bold : bool; fs_italic : bool;
  fs_color : rgb; fs_spacing : num; fs_hyphens : N }.
(** style.py 227-236 *)
Definition full_or (a : full) (s : style) : full :=
  mkFull (fallback (s_font s) (fs_font a)) (fallback (s_size s) (fs_size a))
         (fallback (s_bold s) (fs_bold a)) (fallback (s_italic s) (fs_italic a))
         (fallback (s_color s) (fs_color a)) (fallback (s_spacing s) (fs_spacing a))
         (fallback (s_hyphens s) (fs_hyphens a)).
(** style.py 270-272; hyphenator 0 is the default one *)
Definition full_default : full :=
  mkFull (TBuiltin Helvetica) (nZ 12) false false (mkRGB n0 n0 n0) (nQ (5 # 4)%Q) 0%N.
(** style.py 238-245: [as_state] *)
Definition as_state (f : full) : state :=
  mkState (mkFont (fs_font f) (fs_bold f) (fs_italic f)) (fs_size f) (fs_color f)
          (fs_spacing f) (fs_hyphens f).

(** style.py 289-290: [_differs] *)
Definition differs {A} (eqb : A -> A -> bool) (a : option A) (b : A) : bool :=
  match a with Some x => negb (eqb x b) | None => false end.
(** style.py 178-198: [Style.diff] *)
Definition style_diff (s : style) (base : full) : list command :=
  (if differs Bool.eqb (s_bold s) (fs_bold base)
      || differs Bool.eqb (s_italic s) (fs_italic base)
      || differs typeface_eqb (s_font s) (fs_font base)
      || differs neqb (s_size s) (fs_size base)
   then [SetFont (mkFont (fallback (s_font s) (fs_font base))
                         (fallback (s_bold s) (fs_bold base))
                         (fallback (s_italic s) (fs_italic base)))
                 (fallback (s_size s) (fs_size base))]
   else [])
  ++ (match s_color s with
      | Some c => if rgb_eqb c (fs_color base) then [] else [SetColor c]
      | None => [] end)
  ++ (match s_spacing s with
      | Some v => if neqb v (fs_spacing base) then [] else [SetLineSpacing v]
      | None => [] end)
  ++ (match s_hyphens s with
      | Some h => if (h =? fs_hyphens base)%N then [] else [SetHyphens h]
      | None => [] end).
(** style.py 247-265: [StyleFull.diff] *)
Definition full_diff (f base : full) : list command :=
  (if negb (Bool.eqb (fs_bold f) (fs_bold base) && Bool.eqb (fs_italic f) (fs_italic base)
            && typeface_eqb (fs_font f) (fs_font base) && neqb (fs_size f) (fs_size base))
   then [SetFont (mkFont (fs_font f) (fs_bold f) (fs_italic f)) (fs_size f)] else [])
  ++ (if rgb_eqb (fs_color f) (fs_color base) then [] else [SetColor (fs_color f)])
  ++ (if neqb (fs_spacing f) (fs_spacing base) then [] else [SetLineSpacing (fs_spacing f)])
  ++ (if (fs_hyphens f =? fs_hyphens base)%N then [] else [SetHyphens (fs_hyphens f)]).

(** style.py 316-358: [Span]; the content of a [Span], [Paragraph] or [Text] is a
    sequence of strings and spans *)
Inductive item := IStr (s : str) | ISpan (st : style) (content : list item).

(** style.py 300-313: [StyledMixin.flatten], eagerly: the passages with the
    commands that are then squashed, and the returned [todo].  The iterator
    [todo] is exhausted once a passage squashed it. *)
Definition raw : Type := list command * str.
Fixpoint flatten_item (base : full) (i : item) (todo : list command) {struct i}
  : list raw * list command :=
  match i with
  | IStr s => ([(todo, s)], [])
  | ISpan st content =>
      let newbase := full_or base st in
      let '(ps, todo') :=
        (fix go (l : list item) (todo : list command) : list raw * list command :=
           match l with
           | [] => ([], todo)
           | i :: r => let '(p1, t1) := flatten_item newbase i todo in
                       let '(p2, t2) := go r t1 in (p1 ++ p2, t2)
           end) content (todo ++ style_diff st base) in
      (ps, todo' ++ full_diff base newbase)
  end.
Fixpoint flatten_items (base : full) (l : list item) (todo : list command)
  : list raw * list command :=
  match l with
  | [] => ([], todo)
  | i :: r => let '(p1, t1) := flatten_item base i todo in
              let '(p2, t2) := flatten_items base r t1 in (p1 ++ p2, t2)
  end.
(** [flatten] of a styled object with the given style and content, called with
    the default [todo]: a [Span], a [Paragraph], a [Text] *)
Definition flatten_raw (base : full) (st : style) (content : list item) : list raw :=
  fst (flatten_item base (ISpan st content) []).
Definition passages_of (l : list raw) : list passage := map (fun p => (squash (fst p), snd p)) l.
Definition flatten (base : full) (st : style) (content : list item) : list passage :=
  passages_of (flatten_raw base st content).

(** The fonts registered (resources.py 55) while the flattened passages are
    produced: those of the [SetFont]s created for them.  Commands left over in
    the final [todo] are never created, as nobody iterates it. *)
Definition fonts_of_cmds (l : list command) : list font :=
  flat_map (fun c => match c with SetFont f _ => [f] | _ => [] end) l.
Definition flatten_fonts (base : full) (st : style) (content : list item) : list font :=
  flat_map (fun p => fonts_of_cmds (fst p)) (flatten_raw base st content).
End Style.
