(** * DrawSpec: how a PDF reader interprets paths (ISO 32000-1, 8.5), and curves. *)
From Coq Require Import QArith Qcanon.
From Verif Require Import Base Num Fonts State Render.
Open Scope nat_scope.

Section Paint.
Context {NUM : Num}.
Inductive seg :=
| SMove (x y : num) | SLineTo (x y : num) | SCurve (x1 y1 x2 y2 x3 y3 : num)
| SRect (x y w h : num).
(** a painted path: filled with / stroked with a colour, or not; closed before *)
Record painted := mkPainted {
  p_path : list seg; p_fill : option rgb; p_stroke : option rgb; p_close : bool }.
Record gstate := mkG { g_fill : rgb; g_stroke : rgb; g_path : list seg }.
(** One operator: the new state and what was painted.  [None]: not allowed (a line or
    curve without current point, painting without a path, operators of text).
    Colours may be set at any time (see [strict] for the rule of the standard). *)
Definition paint1 (g : gstate) (o : op) : option (gstate * list painted) :=
  let add s := Some (mkG (g_fill g) (g_stroke g) (g_path g ++ [s]), []) in
  let draw (f s : bool) (close : bool) :=
    match g_path g with
    | [] => None
    | p => Some (mkG (g_fill g) (g_stroke g) [],
                 [mkPainted p (if f then Some (g_fill g) else None)
                              (if s then Some (g_stroke g) else None) close])
    end in
  let go s := match g_path g with [] => None | _ => add s end in
  match o with
  | Om x y => add (SMove x y)
  | Ore x y w h => add (SRect x y w h)
  | Ol x y => go (SLineTo x y)
  | Oc x1 y1 x2 y2 x3 y3 => go (SCurve x1 y1 x2 y2 x3 y3)
  | Org c | OrgD c => Some (mkG c (g_stroke g) (g_path g), [])
  | ORG c => Some (mkG (g_fill g) c (g_path g), [])
  | Ob => draw true true true
  | OB => draw true true false
  | Of => draw true false false
  | Os => draw false true true
  | OS => draw false true false
  | On => draw false false false
  | _ => None
  end.
Fixpoint paint (g : gstate) (l : list op) : option (gstate * list painted) :=
  match l with
  | [] => Some (g, [])
  | o :: r =>
      match paint1 g o with
      | None => None
      | Some (g1, a) => match paint g1 r with None => None | Some (g2, b) => Some (g2, a ++ b) end
      end
  end.

(** The order of operators prescribed by ISO 32000-1, figure 9 ("Graphics objects"):
    within a text object (BT ... ET) the operators of text and colour; between the
    begin of a path and its painting only the operators of path construction. *)
Inductive level := LPage | LPath | LText.
Definition level_step (l : level) (o : op) : option level :=
  match o, l with
  | OBT, LPage => Some LText
  | OET, LText => Some LPage
  | (OTd _ _ | OTD _ _ | OTstar | OTJ _), LText => Some LText
  | (OTL _ | OTf _ _ | Org _ | OrgD _ | ORG _), LText => Some LText
  | (OTL _ | OTf _ _ | Org _ | OrgD _ | ORG _), LPage => Some LPage
  | (Om _ _ | Ore _ _ _ _), (LPage | LPath) => Some LPath
  | (Ol _ _ | Oc _ _ _ _ _ _), LPath => Some LPath
  | (Ob | OB | Of | Os | OS | On), LPath => Some LPage
  | _, _ => None
  end.
Fixpoint levels (l : level) (os : list op) : option level :=
  match os with
  | [] => Some l
  | o :: r => match level_step l o with Some l' => levels l' r | None => None end
  end.
(** a well-formed content stream *)
Definition well_ordered (os : list op) : Prop := levels LPage os = Some LPage.
End Paint.

(** ** Bezier curves, in exact arithmetic *)
Section Bezier.
Open Scope Qc_scope.
Definition pt : Type := Qc * Qc.
Record arc := mkArc { a0 : pt; a1 : pt; a2 : pt; a3 : pt }.
(** cubic Bezier polynomial with the given control values *)
Definition bez (p0 p1 p2 p3 t : Qc) : Qc :=
  (1 - t) * (1 - t) * (1 - t) * p0 + Q2Qc 3 * (1 - t) * (1 - t) * t * p1
  + Q2Qc 3 * (1 - t) * t * t * p2 + t * t * t * p3.
Definition arc_at (a : arc) (t : Qc) : pt :=
  (bez (fst (a0 a)) (fst (a1 a)) (fst (a2 a)) (fst (a3 a)) t,
   bez (snd (a0 a)) (snd (a1 a)) (snd (a2 a)) (snd (a3 a)) t).
(** the arcs of a path that starts at a point and continues by curves only *)
Fixpoint arcs_from (p : pt) (l : list (@seg QcNum)) : option (list arc) :=
  match l with
  | [] => Some []
  | SCurve x1 y1 x2 y2 x3 y3 :: r =>
      match arcs_from (x3, y3) r with
      | Some as_ => Some (mkArc p (x1, y1) (x2, y2) (x3, y3) :: as_)
      | None => None
      end
  | _ => None
  end.
Definition arcs_of (l : list (@seg QcNum)) : option (list arc) :=
  match l with SMove x y :: r => arcs_from (x, y) r | _ => None end.
Definition in_box (x0 y0 x1 y1 : Qc) (p : pt) : Prop :=
  x0 <= fst p /\ fst p <= x1 /\ y0 <= snd p /\ snd p <= y1.
End Bezier.
