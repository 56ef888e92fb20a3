(** * Common: points, margins, colours, columns, pages.
    /repo/src/pdfje/common.py, page.py *)
From Verif Require Import Base Num Fonts State.
Open Scope nat_scope.

(** What [int(s, 16)] takes from Unicode: the value of a non-ASCII decimal digit,
    and which non-ASCII characters are white space. *)
Class Uni := { udecimal : char -> option N; uspace : char -> bool }.

(** [i] within Python's [seq[i]] of a class that compares [i] with 0, 1, ...
    (no negative indices): common.py 133-139, 218-228, 287-295 *)
Definition getitem {A} (l : list A) (i : Z) : res A :=
  if (i <? 0)%Z then Err EIndex
  else match nth_error l (Z.to_nat i) with Some x => Ok x | None => Err EIndex end.

Section Common.
Context {NUM : Num}.

(** ** Points: common.py 81-180 *)
Record xy := mkXY { px : num; py : num }.
(** 127-129: [__iter__] *)
Definition xy_iter (p : xy) : list num := [px p; py p].
(** 133-142: [__getitem__], [__len__] *)
Definition xy_getitem (p : xy) (i : Z) : res num := getitem (xy_iter p) i.
Definition xy_len (p : xy) : nat := 2.
(** What may be given for a point: an [XY], a tuple (of any length), or some other
    object.  *)
Inductive xyarg := PXY (p : xy) | PTup (l : list num) | POther.
(** 123-125: [XY.parse].  [XY( *v)] accepts 0, 1 or 2 values (defaults 0).
    Simplification: an object that is neither is returned as it is and fails where
    it is used; here it fails at once. *)
Definition xy_parse (v : xyarg) : res xy :=
  match v with
  | PXY p => Ok p
  | PTup [] => Ok (mkXY n0 n0)
  | PTup [x] => Ok (mkXY x n0)
  | PTup [x; y] => Ok (mkXY x y)
  | PTup _ => Err EType
  | POther => Err EType
  end.
(** [other[0]], [other[1]] of a tuple *)
Definition tup2 (l : list num) : res (num * num) :=
  match l with x :: y :: _ => Ok (x, y) | _ => Err EIndex end.
(** 164-170, 156-162: [__add__], [__sub__]; [NotImplemented] becomes a TypeError *)
Definition xy_op (f : num -> num -> num) (a : xy) (b : xyarg) : res xy :=
  match b with
  | PTup l => do p <- tup2 l; Ok (mkXY (f (px a) (fst p)) (f (py a) (snd p)))
  | PXY p => Ok (mkXY (f (px a) (px p)) (f (py a) (py p)))
  | POther => Err EType
  end.
Definition xy_add := xy_op nadd.
Definition xy_sub := xy_op nsub.
(** 144-154: [__truediv__], [__mul__] with a number *)
Definition xy_div (a : xy) (k : num) : res xy :=
  do x <- pdiv (px a) k; do y <- pdiv (py a) k; Ok (mkXY x y).
Definition xy_mul (a : xy) (k : num) : xy := mkXY (nmul (px a) k) (nmul (py a) k).
(** 172-180: [add_x], [add_y], [flip] *)
Definition add_x (a : xy) (x : num) : xy := mkXY (nadd (px a) x) (py a).
Definition add_y (a : xy) (y : num) : xy := mkXY (px a) (nadd (py a) y).
Definition xy_flip (a : xy) : xy := mkXY (py a) (px a).

(** ** Margins: common.py 198-249 *)
Record sides := mkSides { s_top : num; s_right : num; s_bottom : num; s_left : num }.
Inductive sidesarg := SSides (s : sides) | STup (l : list num) | SNum (v : num) | SOther.
(** 233-249: [Sides.parse] *)
Definition sides_parse (v : sidesarg) : res sides :=
  match v with
  | SSides s => Ok s
  | STup [a; b; c; d] => Ok (mkSides a b c d)
  | STup [a; b; c] => Ok (mkSides a b c b)
  | STup [a; b] => Ok (mkSides a b a b)
  | STup _ => Err EType
  | SNum v => Ok (mkSides v v v v)
  | SOther => Err EType
  end.
(** 207-211: [__iter__] *)
Definition sides_iter (s : sides) : list num := [s_top s; s_right s; s_bottom s; s_left s].

(** ** Colours: common.py 257-336 *)
(** 280-283: [__post_init__] *)
Definition rgb_new (r g b : num) : res rgb :=
  do _ <- assert_ (nleb r n1 && nleb g n1 && nleb b n1); Ok (mkRGB r g b).
Context {UNI : Uni}.
(** CPython's [int(s, 16)]: a non-ASCII white space character becomes a space, a
    non-ASCII decimal digit its ASCII digit, any other one an invalid character;
    then white space, a sign, digits, white space. *)
Definition to_ascii (c : char) : N :=
  if (c <? 127)%N then c
  else if uspace c then 32%N
  else match udecimal c with Some d => (48 + d)%N | None => 63%N end.
Definition ascii_space (c : N) : bool := ((c =? 32) || ((9 <=? c) && (c <=? 13)))%N.
Definition hexval (c : N) : option N :=
  if ((48 <=? c) && (c <=? 57))%N then Some (c - 48)%N
  else if ((97 <=? c) && (c <=? 102))%N then Some (c - 87)%N
  else if ((65 <=? c) && (c <=? 70))%N then Some (c - 55)%N
  else None.
(** [int(s, 16)] for a string of two characters.  (An underscore or the prefix
    "0x" would need a third one to be followed by a digit.) *)
Definition int16 (a b : char) : res Z :=
  let a := to_ascii a in
  let b := to_ascii b in
  match hexval a, hexval b with
  | Some x, Some y => Ok (Z.of_N (16 * x + y))
  | Some x, None => if ascii_space b then Ok (Z.of_N x) else Err EValue
  | None, Some y =>
      if ascii_space a || (a =? 43)%N then Ok (Z.of_N y)
      else if (a =? 45)%N then Ok (- Z.of_N y)%Z
      else Err EValue
  | None, None => Err EValue
  end.
Inductive colorarg := CRGB (c : rgb) | CTup (l : list num) | CStr (s : str) | COther.
(** 300-315: [RGB.parse] *)
Definition rgb_parse (v : colorarg) : res rgb :=
  match v with
  | CTup [a; b; c] => rgb_new a b c
  | CTup _ => Err EAssertion
  | CStr s =>
      match s with
      | [h; r1; r2; g1; g2; b1; b2] =>
          if (h =? 35)%N then
            do r <- int16 r1 r2; do g <- int16 g1 g2; do b <- int16 b1 b2;
            rgb_new (ndiv (nZ r) (nZ 255)) (ndiv (nZ g) (nZ 255)) (ndiv (nZ b) (nZ 255))
          else Err EAssertion
      | _ => Err EAssertion
      end
  | CRGB c => Ok c
  | COther => Err EAssertion
  end.
(** draw.py 65, 109-110, 154-155, 195-196, 296-297: [color and RGB.parse(color)] where the field is only
    tested for truth and unpacked afterwards: nothing, an empty string and an empty
    tuple are false; an [RGB] has length 3, so it is true. *)
Inductive optcolor := CNone | CSome (v : colorarg).
Definition color_parse (v : optcolor) : res (option rgb) :=
  match v with
  | CNone => Ok None
  | CSome (CStr []) | CSome (CTup []) => Ok None
  | CSome v => do c <- rgb_parse v; Ok (Some c)
  end.

(** ** Columns and pages: page.py *)
(** 29-55: [Column] *)
Record column := mkColumn { c_origin : xy; c_width : num; c_height : num }.
Definition column_new (origin : xyarg) (w h : num) : res column :=
  do o <- xy_parse origin;
  do _ <- assert_ (nltb n0 w); Ok (mkColumn o w h).
(** 177-181: [_column] *)
Definition default_column (page : xy) (margin : sidesarg) : res column :=
  do m <- sides_parse margin;
  column_new (PXY (mkXY (s_left m) (s_bottom m)))
             (nsub (nsub (px page) (s_left m)) (s_right m))
             (nsub (nsub (py page) (s_top m)) (s_bottom m)).
(** 82-141: [Page]; drawings are abstract here *)
Record page (D : Type) := mkPage {
  pg_content : list D; pg_size : xy; pg_rotate : Z; pg_columns : list column }.
Arguments mkPage {D}. Arguments pg_content {D}. Arguments pg_size {D}.
Arguments pg_rotate {D}. Arguments pg_columns {D}.
(** 129-141: [__init__]; the default column is only computed when needed *)
Definition page_new {D} (content : list D) (size : xyarg) (rotate : Z) (margin : sidesarg)
           (columns : list column) : res (page D) :=
  do s <- xy_parse size;
  do cs <- match columns with [] => do c <- default_column s margin; Ok [c] | _ => Ok columns end;
  Ok (mkPage content s rotate cs).
(** units.py 18: [inch(1)]; page.py 134: the default margin *)
Definition default_margin : sidesarg := SSides (mkSides (nZ 72) (nZ 72) (nZ 72) (nZ 72)).
(** 143-153: [Page.add] *)
Definition page_add {D} (p : page D) (d : D) : res (page D) :=
  page_new (pg_content p ++ [d]) (PXY (pg_size p)) (pg_rotate p) default_margin (pg_columns p).
End Common.
Arguments mkPage {NUM D}. Arguments pg_content {NUM D}. Arguments pg_size {NUM D}.
Arguments pg_rotate {NUM D}. Arguments pg_columns {NUM D}.
