(** * RenderSpec: how a PDF reader interprets the text operators. *)
From Coq Require Import QArith Qcanon.
From Verif Require Import Base Num Fonts State Words Render.
Open Scope nat_scope.

Section Spec.
Context {NUM : Num} {ENV : Env NUM}.

(** ** TJ arrays: a sequence of glyphs and adjustments *)
Inductive ev (A : Type) := Glyph (a : A) | Adj (n : num).
Arguments Glyph {A}. Arguments Adj {A}.
(** cut a byte string into codes of [w] bytes *)
Fixpoint codes_of (fuel w : nat) (b : bytes) : list bytes :=
  match fuel, b with
  | S f, _ :: _ => firstn w b :: codes_of f w (skipn w b)
  | _, _ => []
  end.
Definition tj_events (w : nat) (l : list tj) : list (ev bytes) :=
  flat_map (fun t => match t with
                     | TStr b => map Glyph (codes_of (List.length b) w b)
                     | TAdj a => [Adj a]
                     end) l.
(** The intended sequence: before the i-th glyph stand the adjustments listed for
    position i (with opposite sign: TJ subtracts), in order. *)
Definition adjs_at {A} (kern : list (nat * num)) (i : nat) : list (ev A) :=
  map (fun p => Adj (nneg (snd p))) (filter (fun p => fst p =? i) kern).
Fixpoint kerned {A} (i : nat) (glyphs : list A) (kern : list (nat * num)) : list (ev A) :=
  match glyphs with
  | [] => []
  | g :: r => adjs_at kern i ++ Glyph g :: kerned (S i) r kern
  end.

(** ** Showing text: PDF 32000-1, 9.3, 9.4 *)
Record vstate := mkV {
  v_font : option font; v_size : num; v_color : rgb;
  v_lead : num; v_x : num; v_y : num }.      (* leading; start of the current line *)
(** what is shown by one TJ: where the line starts, in which font, size, colour *)
Record shown := mkShown { sh_v : vstate; sh_items : list titem }.
Definition vmove (v : vstate) (dx dy : num) : vstate :=
  mkV (v_font v) (v_size v) (v_color v) (v_lead v) (nadd (v_x v) dx) (nadd (v_y v) dy).
Definition vlead (v : vstate) (l : num) : vstate :=
  mkV (v_font v) (v_size v) (v_color v) l (v_x v) (v_y v).
Definition vstep (v : vstate) (o : op) : vstate :=
  match o with
  | OBT => mkV (v_font v) (v_size v) (v_color v) (v_lead v) n0 n0
  | OTd x y => vmove v x y
  | OTD x y => vmove (vlead v (nneg y)) x y
  | OTstar => vmove v n0 (nneg (v_lead v))
  | OTL l => vlead v l
  | OTf f z => mkV (Some f) z (v_color v) (v_lead v) (v_x v) (v_y v)
  | Org c | OrgD c => mkV (v_font v) (v_size v) c (v_lead v) (v_x v) (v_y v)
  | _ => v
  end.
Fixpoint view (v : vstate) (l : list op) : list shown * vstate :=
  match l with
  | [] => ([], v)
  | o :: r =>
      let (out, v') := view (vstep v o) r in
      (match o with OTJ items => mkShown v items :: out | _ => out end, v')
  end.
Definition item_text (i : titem) : str :=
  match i with ISlug s => sl_txt s | ISpace _ _ => [32%N] end.
Definition item_state (i : titem) : state :=
  match i with ISlug s => sl_state s | ISpace _ st => st end.

(** A shown character: code point, font it was encoded for, and the font, size and
    colour the reader uses. *)
Definition shown_chars (l : list shown) : list (char * font * (option font * num * rgb)) :=
  flat_map (fun s => flat_map (fun i => map (fun c => (c, st_font (item_state i),
     (v_font (sh_v s), v_size (sh_v s), v_color (sh_v s)))) (item_text i)) (sh_items s)) l.
(** what a styled character should look like *)
Definition want (c : char * state) : char * font * (option font * num * rgb) :=
  (fst c, st_font (snd c), (Some (st_font (snd c)), st_size (snd c), st_color (snd c))).
End Spec.
Arguments Glyph {NUM A}. Arguments Adj {NUM A}.

(** ** Displacement (9.4.4), in exact arithmetic: a glyph of width w0 advances by
    [w0/1000 * size], an adjustment a by [-a/1000 * size]. *)
Section Advance.
Context {ENV : Env QcNum}.
Open Scope Qc_scope.
Definition thousand : Qc := Q2Qc 1000.
Fixpoint advance (f : font) (size : Qc) (l : list (@ev QcNum char)) : Qc :=
  match l with
  | [] => 0
  | Glyph c :: r => charwidth f c / thousand * size + advance f size r
  | Adj a :: r => - (a / thousand * size) + advance f size r
  end.
(** of a fragment, shown in its own font and size *)
Definition slug_advance (s : slug) : Qc :=
  advance (st_font (sl_state s)) (st_size (sl_state s)) (kerned 0 (sl_txt s) (sl_kern s)).
(** of a space in state [st] *)
Definition space_advance (t : tspace) (st : state) : Qc :=
  advance (st_font st) (st_size st)
    ((if ntruthy (ts_kern t) then [Adj (nneg (ts_kern t))] else []) ++ [Glyph 32%N]).
Definition box_advance (b : box) : Qc :=
  match b with
  | BSlug s => slug_advance s
  | BMixed segs _ => fold_right (fun p a => slug_advance (fst p) + a) 0 segs
  end.
Definition boxes_advance (l : list box) : Qc := fold_right (fun b a => box_advance b + a) 0 l.
Definition word_advance (w : word) : Qc :=
  boxes_advance (w_boxes w)
  + match w_tail w with Some t => space_advance t (w_state w) | None => 0 end.
Fixpoint wl_advance (w : wordlike) : Qc :=
  match w with WBox b => box_advance b | WWord w => word_advance w | WCmd w _ => wl_advance w end.
Definition all_advance (l : list wordlike) : Qc := fold_right (fun w a => wl_advance w + a) 0 l.
End Advance.
