(** * TrueType: an embedded font as made from the tables of its file.

    Models the parts of src/pdfje/fonts/embed.py that read the font: widths, kerning,
    the font descriptor and the map from characters to glyphs.  [tt] is what fontTools
    presents of the file. *)
From Coq Require Import QArith.
From Verif Require Import Base Num Fonts Gpos.
Open Scope nat_scope.

Record tt := {
  tt_name : bytes;                       (* name.getBestFullName().encode() *)
  tt_upem : Z;                           (* head.unitsPerEm *)
  tt_cmap : list (N * glyph);            (* getBestCmap() *)
  tt_notdef : glyph;                     (* ".notdef" *)
  tt_advance : glyph -> Z;               (* hmtx.metrics[..][0] *)
  tt_bbox : Z * Z * Z * Z;               (* head.xMin, yMin, xMax, yMax *)
  tt_fixed : bool;                       (* post.isFixedPitch *)
  tt_angle : Q;                          (* post.italicAngle *)
  tt_weight : Z;                         (* OS/2.usWeightClass *)
  tt_ascent : Z; tt_descent : Z;         (* hhea *)
  tt_cap : option Z;                     (* OS/2.sCapHeight, if the table has it *)
  tt_gpos : option gpos;
  tt_order : list N -> list glyph;       (* glyph order after subsetting to the given characters *)
  tt_file : list N -> bytes              (* the saved subset *)
}.
(** embed.py 116-118, 297-300: [dictget(cmap, ".notdef")] *)
Definition glyph_of (t : tt) (c : N) : glyph :=
  match dget N.eqb (tt_cmap t) c with Some g => g | None => tt_notdef t end.
(** embed.py 301: [ttf.getReverseGlyphMap().__getitem__]: a missing glyph raises KeyError;
    here it gets a number for which [encode_gid] fails. *)
Fixpoint glyph_index (l : list glyph) (g : glyph) (i : N) : N :=
  match l with [] => 65536 | x :: r => if (g =? x)%N then i else glyph_index r g (i + 1) end.

Section Metrics.
Context {NUM : Num}.
(** embed.py 111: [TEXTSPACE_TO_GLYPHSPACE / unitsPerEm] *)
Definition tt_scale (t : tt) : num := ndiv (nZ 1000) (nZ (tt_upem t)).
(** embed.py 116-122: [charwidth] *)
Definition tt_charwidth (t : tt) (c : N) : num := nmul (tt_scale t) (nZ (tt_advance t (glyph_of t c))).
(** embed.py 126-130: [kerning] *)
Definition tt_kerning (t : tt) : res (option (N -> N -> res num)) :=
  do kp <- for_font (tt_cmap t) (tt_gpos t); Ok (embed_kerning (tt_scale t) kp).
(** embed.py 254-259: [_encode_bbox], and the roundings of the descriptor *)
Definition scaled_round (t : tt) (v : Z) : Z := nround (nmul (nZ v) (tt_scale t)).
(** embed.py 274-283: [_encode_flags] *)
Definition tt_flags (t : tt) : Z :=
  Z.lor (Z.lor (Z.lor 4 (if tt_fixed t then 1 else 0)) (if Qeq_bool (tt_angle t) 0 then 0 else 64))
        (if (600 <=? tt_weight t)%Z then 262144 else 0).
(** embed.py 320-329: [_encode_cap_height] *)
Definition tt_cap_height (t : tt) : Z := scaled_round t (match tt_cap t with Some v => v | None => tt_ascent t end).
(** embed.py 331-340: [_encode_stem_v] *)
Definition tt_stem_v (t : tt) : Z :=
  nround (nadd (nZ 50) (nmul (ndiv (nZ 191) (nZ 800)) (nZ (tt_weight t)))).
(** embed.py 154-253: what [to_objects] takes from the font *)
Definition ttf_of (t : tt) : ttf := {|
  ttf_name := tt_name t;
  ttf_dw := nto_Q (nmul (nZ (tt_advance t (tt_notdef t))) (tt_scale t));
  ttf_flags := tt_flags t;
  ttf_bbox := let '(x0, y0, x1, y1) := tt_bbox t in map (scaled_round t) [x0; y0; x1; y1];
  ttf_italic_angle := nround (nQ (tt_angle t));
  ttf_ascent := scaled_round t (tt_ascent t);
  ttf_descent := scaled_round t (tt_descent t);
  ttf_cap_height := tt_cap_height t;
  ttf_stem_v := tt_stem_v t;
  ttf_gid := fun used c => glyph_index (tt_order t used) (glyph_of t c) 0;
  ttf_file := tt_file t |}.
End Metrics.
