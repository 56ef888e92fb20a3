(** * KernSpec: kerning of a text.

    [kerned_text prev l]: the styled text [l], every character with the amount (in
    thousandths of the font size) by which it is to be moved from its neighbour: what
    the font's kerning table says for the pair (previous character, character) if both
    are in the same font and size, otherwise nothing.  [prev] is the character before.
    [adjusted w]: the characters of a word, each with the amount by which the word
    moves it. *)
From Coq Require Import QArith Qcanon.
From Verif Require Import Base Num Fonts State TextSpec Words WordsSpec.
Open Scope nat_scope.

Section Spec.
Context {ENV : Env QcNum}.
Definition pair_kern (prev : option schar) (x : schar) : Qc :=
  match prev with
  | Some (p, sp) => if (font_eqb (st_font sp) (st_font (snd x)) && Qc_eq_bool (st_size sp) (st_size (snd x)))%bool
                    then charkern (st_font (snd x)) p (fst x) else 0%Qc
  | None => 0%Qc
  end.
Fixpoint kerned_text (prev : option schar) (l : list schar) : list (schar * Qc) :=
  match l with
  | [] => []
  | x :: r => (x, pair_kern prev x) :: kerned_text (Some x) r
  end.

(** the adjustment at position [i] of a fragment *)
Definition kern_at (k : list (nat * Qc)) (i : nat) : Qc :=
  match find (fun e => fst e =? i) k with Some (_, x) => x | None => 0%Qc end.
Fixpoint with_kern (i : nat) (k : list (nat * Qc)) (l : list schar) : list (schar * Qc) :=
  match l with
  | [] => []
  | x :: r => (x, kern_at k i) :: with_kern (S i) k r
  end.
Definition adj_slug (s : @slug QcNum) : list (schar * Qc) := with_kern 0 (sl_kern s) (measured_slug s).
Definition adj_box (b : @box QcNum) : list (schar * Qc) :=
  match b with BSlug s => adj_slug s | BMixed segs _ => flat_map (fun p => adj_slug (fst p)) segs end.
Definition adj_tail (t : option (@tspace QcNum)) (s : state) : list (schar * Qc) :=
  match t with Some t => [((32%N, s), ts_kern t)] | None => [] end.
Definition adj_word (w : @word QcNum) : list (schar * Qc) :=
  flat_map adj_box (w_boxes w) ++ adj_tail (w_tail w) (w_state w).
Fixpoint adjusted (w : @wordlike QcNum) : list (schar * Qc) :=
  match w with WBox b => adj_box b | WWord w => adj_word w | WCmd w _ => adjusted w end.
Definition adjusted_all (l : list wordlike) : list (schar * Qc) := flat_map adjusted l.
(** the last character of [l] ([d] if there is none) *)
Definition last_of (d : option schar) (l : list schar) : option schar :=
  match rev l with x :: _ => Some x | [] => d end.
End Spec.
