(** * SceneSpec: what a PDF reader shows of a whole content stream (ISO 32000-1, 8.4, 8.5,
    9.3, 9.4): one graphics state for text and for paths.  In particular text is painted
    in the colour that fills paths, and text settings outlive the text object. *)
From Verif Require Import Base Num Fonts State Words Render DrawSpec.
Open Scope nat_scope.

Section Scene.
Context {NUM : Num}.
(** The graphics state: font and size (none at the beginning of a page), colours, leading,
    start of the line within a text object, the path under construction, and whether
    we are within a text object.  (The code never changes line widths, dashes, the
    transformation matrix, the clipping path, or the other text settings.) *)
Record gfx := mkGfx {
  x_font : option font; x_size : num; x_fill : rgb; x_stroke : rgb; x_lead : num;
  x_x : num; x_y : num; x_path : list (@seg NUM); x_text : bool }.
(** what can be seen *)
Inductive mark :=
| MPath (path : list (@seg NUM)) (fill stroke : option rgb) (close : bool)
| MText (x y : num) (f : option font) (size : num) (color : rgb) (items : list titem).

Definition set_path (g : gfx) p := mkGfx (x_font g) (x_size g) (x_fill g) (x_stroke g) (x_lead g) (x_x g) (x_y g) p (x_text g).
Definition set_fill (g : gfx) c := mkGfx (x_font g) (x_size g) c (x_stroke g) (x_lead g) (x_x g) (x_y g) (x_path g) (x_text g).
Definition set_stroke (g : gfx) c := mkGfx (x_font g) (x_size g) (x_fill g) c (x_lead g) (x_x g) (x_y g) (x_path g) (x_text g).
Definition set_font (g : gfx) f z := mkGfx (Some f) z (x_fill g) (x_stroke g) (x_lead g) (x_x g) (x_y g) (x_path g) (x_text g).
Definition set_lead (g : gfx) l := mkGfx (x_font g) (x_size g) (x_fill g) (x_stroke g) l (x_x g) (x_y g) (x_path g) (x_text g).
Definition move (g : gfx) dx dy := mkGfx (x_font g) (x_size g) (x_fill g) (x_stroke g) (x_lead g)
  (nadd (x_x g) dx) (nadd (x_y g) dy) (x_path g) (x_text g).
Definition enter (g : gfx) := mkGfx (x_font g) (x_size g) (x_fill g) (x_stroke g) (x_lead g) n0 n0 (x_path g) true.
Definition leave (g : gfx) := mkGfx (x_font g) (x_size g) (x_fill g) (x_stroke g) (x_lead g) (x_x g) (x_y g) (x_path g) false.

(** One operator; [None]: not allowed here (text operators outside of text objects, paths
    within, painting or continuing a path that was not begun, ...).  Colours may be set
    anywhere (readers accept it, see C70). *)
Definition scene1 (g : gfx) (o : op) : option (gfx * list mark) :=
  let in_text (r : gfx * list mark) := if x_text g then Some r else None in
  let out_text (r : gfx * list mark) := if x_text g then None else Some r in
  let add s := out_text (set_path g (x_path g ++ [s]), []) in
  let go s := match x_path g with [] => None | _ => add s end in
  let draw (ms : list mark) := match x_path g with [] => None | _ => out_text (set_path g [], ms) end in
  match o with
  | OBT => match x_path g with [] => out_text (enter g, []) | _ => None end
  | OET => in_text (leave g, [])
  | OTd x y => in_text (move g x y, [])
  | OTD x y => in_text (move (set_lead g (nneg y)) x y, [])
  | OTstar => in_text (move g n0 (nneg (x_lead g)), [])
  | OTL l => Some (set_lead g l, [])
  | OTf f z => Some (set_font g f z, [])
  | Org c | OrgD c => Some (set_fill g c, [])
  | ORG c => Some (set_stroke g c, [])
  | OTJ [] => in_text (g, [])
  | OTJ items => in_text (g, [MText (x_x g) (x_y g) (x_font g) (x_size g) (x_fill g) items])
  | Om x y => add (SMove x y)
  | Ore x y w h => add (SRect x y w h)
  | Ol x y => go (SLineTo x y)
  | Oc a b c d e f => go (SCurve a b c d e f)
  | Ob => draw [MPath (x_path g) (Some (x_fill g)) (Some (x_stroke g)) true]
  | OB => draw [MPath (x_path g) (Some (x_fill g)) (Some (x_stroke g)) false]
  | Of => draw [MPath (x_path g) (Some (x_fill g)) None false]
  | Os => draw [MPath (x_path g) None (Some (x_stroke g)) true]
  | OS => draw [MPath (x_path g) None (Some (x_stroke g)) false]
  | On => draw []
  end.
Fixpoint scene (g : gfx) (l : list op) : option (gfx * list mark) :=
  match l with
  | [] => Some (g, [])
  | o :: r =>
      match scene1 g o with
      | None => None
      | Some (g1, a) => match scene g1 r with None => None | Some (g2, b) => Some (g2, a ++ b) end
      end
  end.
(** between objects: no path has been begun, no text object is open *)
Definition at_page (g : gfx) : Prop := x_path g = [] /\ x_text g = false.
(** [ops] show exactly [ms], whatever the state of the reader between the objects before
    them, and leave the reader between objects *)
Definition shows_alone (ops : list op) (ms : list mark) : Prop :=
  forall g, at_page g -> exists g', at_page g' /\ scene g ops = Some (g', ms).
End Scene.
