(** * LineKernSpec: kerning on a line.

    [kerned_line alone d x ws]: in the words [ws] every character is moved as the font's
    kerning table says for it and the character before it (KernSpec), [d] being the
    character before the first one; the first character is moved by another [x].  With
    [alone], a word may be kerned by itself: its first character is then not moved. *)
From Coq Require Import QArith Qcanon.
From Verif Require Import Base Num Fonts State TextSpec Words WordsSpec RenderSpec KernSpec.
Open Scope nat_scope.

Section Spec.
Context {ENV : Env QcNum}.
(** the first (last) character is moved by another [x] *)
Definition moved (x : Qc) (l : list (schar * Qc)) : list (schar * Qc) :=
  match l with (c, k) :: r => (c, x + k)%Qc :: r | [] => [] end.
Definition stretched (x : Qc) (l : list (schar * Qc)) : list (schar * Qc) := rev (moved x (rev l)).
Definition kerned_line (alone : bool) (d : option schar) (x : Qc) (ws : list wordlike) : Prop :=
  forall a w b, ws = a ++ w :: b ->
  exists p, (p = last_of d (measured_all a) \/ alone = true /\ p = None)
    /\ adjusted w = moved (match a with [] => x | _ => 0%Qc end) (kerned_text p (measured w)).
(** the indentation in thousandths of the size of the first character *)
Definition indent_of (x : Qc) (m : list schar) : Qc := match m with (_, s) :: _ => (x / st_size s * thousand)%Qc | [] => 0%Qc end.
End Spec.
