(** * Draw: the drawings.  /repo/src/pdfje/draw.py *)
From Coq Require Import QArith String.
From Verif Require Import Base Num Fonts State Style Words Parse Render Common.
Local Open Scope list_scope.
Open Scope nat_scope.

Section Draw.
Context {NUM : Num} {ENV : Env NUM} {UNI : Uni}.

(** The drawings after their [__init__].  The points of a polyline are only looked
    at when it is rendered (draw.py 294). *)
Inductive drawing :=
| DLine (a b : xy) (stroke : option rgb)
| DRect (o : xy) (w h : num) (fill stroke : option rgb)
| DEllipse (c : xy) (w h : num) (fill stroke : option rgb)
| DCircle (c : xy) (r : num) (fill stroke : option rgb)
| DPolyline (pts : list xyarg) (close : bool) (fill stroke : option rgb)
| DText (loc : xy) (content : list item) (st : style) (a : align).

(** the [__init__]s: 57-65, 98-110, 143-155, 186-196, 287-297, 331-349 *)
Definition line_new (a b : xyarg) (stroke : optcolor) : res drawing :=
  do a <- xy_parse a; do b <- xy_parse b; do s <- color_parse stroke; Ok (DLine a b s).
Definition rect_new (o : xyarg) (w h : num) (fill stroke : optcolor) : res drawing :=
  do o <- xy_parse o; do f <- color_parse fill; do s <- color_parse stroke; Ok (DRect o w h f s).
Definition ellipse_new (c : xyarg) (w h : num) (fill stroke : optcolor) : res drawing :=
  do c <- xy_parse c; do f <- color_parse fill; do s <- color_parse stroke; Ok (DEllipse c w h f s).
Definition circle_new (c : xyarg) (r : num) (fill stroke : optcolor) : res drawing :=
  do c <- xy_parse c; do f <- color_parse fill; do s <- color_parse stroke; Ok (DCircle c r f s).
Definition polyline_new (pts : list xyarg) (close : bool) (fill stroke : optcolor) : res drawing :=
  do f <- color_parse fill; do s <- color_parse stroke; Ok (DPolyline pts close f s).
Definition text_new (loc : xyarg) (content : list item) (st : style) (a : align) : res drawing :=
  do l <- xy_parse loc;
  match a with AJustify => Err ENotImpl | _ => Ok (DText l content st a) end.

(** 203-213: [_finish] *)
Definition finish (fill stroke : option rgb) (close : bool) : list op :=
  match fill, stroke with
  | Some f, Some s => [OrgD f; ORG s; if close then Ob else OB]
  | Some f, None => [OrgD f; Of]
  | None, Some s => [ORG s; if close then Os else OS]
  | None, None => [On]
  end.
(** 217-261: [_ellipse]; [kappa = 0.5522848] *)
Definition kappa : num := nQ (5522848 # 10000000)%Q.
Definition ellipse_ops (c : xy) (w h : num) (fill stroke : option rgb) : list op :=
  let w2 := ndiv w (nZ 2) in
  let h2 := ndiv h (nZ 2) in
  let x := nsub (px c) w2 in
  let y := nsub (py c) h2 in
  let ox := nmul w2 kappa in
  let oy := nmul h2 kappa in
  let xe := nadd x w in
  let ye := nadd y h in
  let xm := nadd x w2 in
  let ym := nadd y h2 in
  [Om x ym;
   Oc x (nsub ym oy) (nsub xm ox) y xm y;
   Oc (nadd xm ox) y xe (nsub ym oy) xe ym;
   Oc xe (nadd ym oy) (nadd xm ox) ye xm ye;
   Oc (nsub xm ox) ye x (nadd ym oy) x ym] ++ finish fill stroke false.
(** 299-306: [Polyline.render].  The first point is formatted as it is
    ([b"%g %g m " % point]): only a pair is accepted, an [XY] is a TypeError.  The
    other ones are made tuples first. *)
Definition first_point (p : xyarg) : res (num * num) :=
  match p with PTup [x; y] => Ok (x, y) | _ => Err EType end.
Definition other_point (p : xyarg) : res (num * num) :=
  match p with
  | PTup [x; y] => Ok (x, y)
  | PXY q => Ok (px q, py q)
  | _ => Err EType
  end.
Definition polyline_ops (pts : list xyarg) (close : bool) (fill stroke : option rgb) : res (list op) :=
  match pts with
  | [] => Ok []
  | p :: r =>
      do a <- first_point p;
      do l <- mapM other_point r;
      Ok (Om (fst a) (snd a) :: map (fun q => Ol (fst q) (snd q)) l ++ finish fill stroke close)
  end.

(** 378-387: [into_lines], of the groups made by [splitlines]: when the words do not
    use up a group, [splitlines] never gets to the following ones. *)
Fixpoint text_lines (gs : list (list passage)) (st : state) : res (list tline) :=
  match gs with
  | [] => Ok []
  | g :: r =>
      do x <- into_words g st;
      let '(cmd, ws, ex) := x in
      let l := mkTLine cmd ws (nsum (map wl_width ws)) in
      let st' := match rev ws with w :: _ => wl_state w | [] => st end in
      if ex then do ls <- text_lines r st'; Ok (l :: ls) else Ok [l]
  end.
(** 351-361: [Text.render] *)
Definition text_ops (loc : xy) (content : list item) (sty : style) (a : align) (base : full)
  : res (list op) :=
  let st := as_state base in
  let ps := flatten base sty content in
  do ls <- text_lines (splitlines ps) st;
  Ok (render_text (px loc) (py loc) (Some st) n0 ls (max_lead ps st) a).

(** the [render] methods: 67-69, 112-114, 157-160, 198-200 *)
Definition draw_ops (d : drawing) (base : full) : res (list op) :=
  match d with
  | DLine a b s => Ok ([Om (px a) (py a); Ol (px b) (py b)] ++ finish None s false)
  | DRect o w h f s => Ok (Ore (px o) (py o) w h :: finish f s false)
  | DEllipse c w h f s => Ok (ellipse_ops c w h f s)
  | DCircle c r f s => let w := nmul r (nZ 2) in Ok (ellipse_ops c w w f s)
  | DPolyline pts close f s => polyline_ops pts close f s
  | DText loc content sty a => text_ops loc content sty a base
  end.
(** The fonts registered (resources.py 55) by a drawing, in order: 352 and 353. *)
Definition draw_fonts (d : drawing) (base : full) : list font :=
  match d with
  | DText _ content sty _ => st_font (as_state base) :: flatten_fonts base sty content
  | _ => []
  end.
End Draw.
