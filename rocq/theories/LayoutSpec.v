(** * LayoutSpec: what it means to fill columns and pages. *)
From Verif Require Import Base Num Fonts State Style TextSpec Words WordsSpec Render Common Draw Layout.
Open Scope nat_scope.

Section Spec.
Context {NUM : Num} {ENV : Env NUM}.

(** Column i of [out] is the i-th column given, with the shapes [added i] added to it,
    in order. *)
Definition adds (cs : nat -> colfill) (added : list (list shaped)) (out : list colfill) : Prop :=
  out = map (fun i => fold_left cf_add (nth i added []) (cs i)) (seq 0 (List.length added)).
(** Only the columns given, at least one, in order, with something added. *)
Definition only_adds (cs : nat -> colfill) (out : list colfill) : Prop :=
  out <> [] /\ exists added, adds cs added out.

(** ** Pages *)
(** completed pages, then the remaining ones *)
Definition sapp {A} (l : list A) (s : nat -> A) : nat -> A :=
  fun k => match nth_error l k with Some x => x | None => s (k - List.length l) end.
(** the number of columns to be filled before page k *)
Definition off (doc : nat -> pagefill) (k : nat) : nat :=
  list_sum (map (fun j => List.length (pf_todo (doc j))) (seq 0 k)).
(** the columns to be filled, the first ones replaced by those that were filled *)
Definition newcol (filled : list colfill) (doc : nat -> pagefill) (i : nat) : colfill :=
  nth i filled (flat_todo doc i).
(** every page has a column to fill *)
Definition open_pages (doc : nat -> pagefill) : Prop := forall k, pf_todo (doc k) <> [].

(** the shapes in a column, on a page *)
Definition col_shapes (c : colfill) : list shaped := map snd (cf_blocks c).
Definition page_shapes (p : page drawing * list colfill) : list shaped := flat_map col_shapes (snd p).

(** ** Lines of text, regardless of styles *)
Definition shape_lines (s : shaped) : list tline := match s with SText ls _ _ _ => ls | SRule _ _ _ _ => [] end.
Definition line_text (l : tline) : str := map fst (measured_all (tl_words l)).
(** A line shows a piece of text: exactly, or with a hyphen added at the end, or with
    one space removed from the end; lines show a text that is cut into such pieces. *)
Definition is_text_line (piece line : str) : Prop :=
  line = piece \/ line = piece ++ [45%N] \/ piece = line ++ [32%N].
Definition shows_text (lines : list str) (whole : str) : Prop :=
  exists pieces, concat pieces = whole /\ Forall2 is_text_line pieces lines.
End Spec.
