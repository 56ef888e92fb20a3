(** * Fonts: typefaces, encoding, kerning tables, embedded subsets.
    /repo/src/pdfje/fonts/common.py, fonts/builtins.py, fonts/embed.py,
    resources.py *)
From Verif Require Import Base Gfmt Num Atoms.
From Coq Require Import String.
Local Open Scope list_scope.
Open Scope nat_scope.
Notation length := List.length.

(** ** Typefaces and fonts *)

(** builtins.py 18-11066: the five builtin typefaces *)
Inductive builtin := Helvetica | TimesRoman | Courier | Symbol | ZapfDingbats.
(** fonts/common.py 63-113 [TrueType]: four paths (compared by value; a path is
    a number here), 116-144 [BuiltinTypeface]. *)
Inductive typeface :=
| TBuiltin (b : builtin)
| TTrue (regular bold italic bold_italic : N).

(** A font object.  Within a document a font object is determined by the key
    under which [Resources.font] (resources.py 55-68) keeps it: typeface, bold,
    italic.  (Different keys give different objects: the four fonts of a builtin
    typeface are distinct objects compared by identity, as are [Subset]s.) *)
Record font := mkFont { f_face : typeface; f_bold : bool; f_italic : bool }.

Definition builtin_eqb (a b : builtin) : bool :=
  match a, b with
  | Helvetica, Helvetica | TimesRoman, TimesRoman | Courier, Courier
  | Symbol, Symbol | ZapfDingbats, ZapfDingbats => true
  | _, _ => false
  end.
Definition typeface_eqb (a b : typeface) : bool :=
  match a, b with
  | TBuiltin x, TBuiltin y => builtin_eqb x y
  | TTrue a1 a2 a3 a4, TTrue b1 b2 b3 b4 =>
      ((a1 =? b1) && (a2 =? b2) && (a3 =? b3) && (a4 =? b4))%N
  | _, _ => false
  end.
Definition font_eqb (a b : font) : bool :=
  typeface_eqb (f_face a) (f_face b) && Bool.eqb (f_bold a) (f_bold b)
  && Bool.eqb (f_italic a) (f_italic b).

Definition is_builtin (f : font) : bool :=
  match f_face f with TBuiltin _ => true | _ => false end.

(** fonts/common.py 227 and 136 (embed.py): [encoding_width] *)
Definition encoding_width (f : font) : nat := if is_builtin f then 1 else 2.

(** builtins.py: names and ids of the builtin fonts.  [font()] picks
    regular/bold/italic/bold_italic, fonts/common.py 140-144. *)
Definition pick4 {A} (r b i bi : A) (bold italic : bool) : A :=
  if bold then (if italic then bi else b) else (if italic then i else r).
Definition builtin_name (f : builtin) : bool -> bool -> bytes :=
  match f with
  | Helvetica => pick4 (bs "Helvetica") (bs "Helvetica-Bold") (bs "Helvetica-Oblique")
                       (bs "Helvetica-BoldOblique")
  | TimesRoman => pick4 (bs "Times-Roman") (bs "Times-Bold") (bs "Times-Italic")
                        (bs "Times-BoldItalic")
  | Courier => pick4 (bs "Courier") (bs "Courier-Bold") (bs "Courier-Oblique")
                     (bs "Courier-BoldOblique")
  | Symbol => pick4 (bs "Symbol") (bs "Symbol") (bs "Symbol") (bs "Symbol")
  | ZapfDingbats => pick4 (bs "ZapfDingbats") (bs "ZapfDingbats") (bs "ZapfDingbats")
                          (bs "ZapfDingbats")
  end.
Definition builtin_id (f : builtin) : bool -> bool -> bytes :=
  match f with
  | Helvetica => pick4 (bs "f0") (bs "f1") (bs "f2") (bs "f3")
  | TimesRoman => pick4 (bs "f4") (bs "f5") (bs "f6") (bs "f7")
  | Courier => pick4 (bs "f8") (bs "f9") (bs "f10") (bs "f11")
  | Symbol => pick4 (bs "f12") (bs "f12") (bs "f12") (bs "f12")
  | ZapfDingbats => pick4 (bs "f13") (bs "f13") (bs "f13") (bs "f13")
  end.

(** ** Builtin encoding *)

(** Python's cp1252 codec above 0x7f: byte, code point *)
Definition cp1252_high : list (N * N) :=
  [(128, 8364); (130, 8218); (131, 402); (132, 8222); (133, 8230); (134, 8224);
   (135, 8225); (136, 710); (137, 8240); (138, 352); (139, 8249); (140, 338);
   (142, 381); (145, 8216); (146, 8217); (147, 8220); (148, 8221); (149, 8226);
   (150, 8211); (151, 8212); (152, 732); (153, 8482); (154, 353); (155, 8250);
   (156, 339); (158, 382); (159, 376)]%N.
(** fonts/common.py 167-170: [s.encode("cp1252", errors="replace")] *)
Definition cp1252_char (c : char) : byte :=
  if ((c <? 128) || ((160 <=? c) && (c <? 256)))%N then c
  else match find (fun p => (snd p =? c)%N) cp1252_high with
       | Some p => fst p
       | None => 63%N
       end.
Definition encode_builtin (s : str) : bytes := map cp1252_char s.

(** ** Kerning *)

(** itertools.pairwise *)
Fixpoint pairwise {A} (l : list A) : list (A * A) :=
  match l with
  | a :: (b :: _) as r => (a, b) :: pairwise r
  | _ => []
  end.

Section Kern.
Context {NUM : Num}.
(** [zip(count(i), pairs)] filtered by truthy table values *)
Fixpoint kern_from (table : char -> char -> num) (i : nat) (pairs : list (char * char))
  : list (nat * num) :=
  match pairs with
  | [] => []
  | (a, b) :: r =>
      let sp := table a b in
      if ntruthy sp then (i, sp) :: kern_from table (S i) r else kern_from table (S i) r
  end.
(** fonts/common.py 191-201: [kern].  [count(not prev)] starts at 0 when there
    is a previous character.  ([prev] is a one-character string, never empty.) *)
Definition kern (table : char -> char -> num) (s : str) (prev : option char) : list (nat * num) :=
  match prev with
  | Some p => kern_from table 0 (pairwise (p :: s))
  | None => kern_from table 1 (pairwise s)
  end.
End Kern.

(** ** Environment: what the model takes from outside

    Metrics of all fonts, the hyphenation functions (by number), and the class
    [\w] of Python's [re].  No behaviour is assumed. *)
Class Env (NUM : Num) := {
  charwidth : font -> char -> num;                     (* glyph space units *)
  kerntab : font -> option (char -> char -> num);
  hyphenator : N -> str -> list str;
  is_wordchar : char -> bool
}.

Section Metrics.
Context {NUM : Num} {ENV : Env NUM}.
(** fonts/common.py 164-165, embed.py 134-135: [width] *)
Definition font_width (f : font) (s : str) : num :=
  ndiv (nsum (map (charwidth f) s)) n1000.
(** fonts/common.py 161-162, embed.py 107-108: [spacewidth] *)
Definition spacewidth (f : font) : num := charwidth f 32%N.
(** fonts/common.py 172-173, embed.py 146-149: [kern] *)
Definition font_kern (f : font) (s : str) (prev : option char) : list (nat * num) :=
  match kerntab f with Some t => kern t s prev | None => [] end.
(** fonts/common.py 175-176, embed.py 151-152: [charkern] *)
Definition charkern (f : font) (a b : char) : num :=
  match kerntab f with Some t => t a b | None => n0 end.
End Metrics.

(** ** Embedded fonts *)

(** embed.py 95 and 125: [cids = defaultdict(count().__next__)]: an
    insertion-ordered dictionary code point -> CID, and the counter. *)
Record cidmap := mkCids { cm_entries : list (N * N); cm_next : N }.
Definition cids_empty : cidmap := mkCids [] 0.
(** [cids[c]] *)
Definition cid_get (m : cidmap) (c : char) : N * cidmap :=
  match find (fun e => (fst e =? c)%N) (cm_entries m) with
  | Some e => (snd e, m)
  | None => (cm_next m, mkCids (cm_entries m ++ [(c, cm_next m)]) (cm_next m + 1))
  end.
(** [s.translate(cids)]: the sequence of CIDs, left to right *)
Fixpoint translate (m : cidmap) (s : str) : list N * cidmap :=
  match s with
  | [] => ([], m)
  | c :: r => let (i, m1) := cid_get m c in
              let (is, m2) := translate m1 r in (i :: is, m2)
  end.
(** [chr(i).encode("utf-16be", errors="surrogatepass")] *)
Definition utf16be_char (i : N) : bytes :=
  if (i <? 65536)%N then [(i / 256)%N; (i mod 256)%N]
  else let j := (i - 65536)%N in
       let hi := (55296 + j / 1024)%N in
       let lo := (56320 + j mod 1024)%N in
       [(hi / 256)%N; (hi mod 256)%N; (lo / 256)%N; (lo mod 256)%N].
(** embed.py 137-144: [Subset.encode] (with its effect on [cids]).
    Simplification: [translate] raises for CIDs beyond 0x10ffff; a document with
    over a million distinct characters in one font is not considered. *)
Definition encode_subset (m : cidmap) (s : str) : bytes * cidmap :=
  let (is, m') := translate m s in (flat_map utf16be_char is, m').

(** embed.py 54-61: [_utf16be_hex] *)
Definition utf16be_hex (c : N) : bytes :=
  if (c <=? 65535)%N then hexpadU 4 c
  else hexpadU 4 (N.lor (N.shiftr (c - 65536) 10) 55296)
       ++ hexpadU 4 (N.lor (N.land c 1023) 56320).

(** embed.py 47-51: [_CIDSYS_INFO] *)
Definition cidsys_info : atom :=
  ADict [(bs "Registry", ALit (bs "Adobe")); (bs "Ordering", ALit (bs "UCS"));
         (bs "Supplement", AInt 0)].
Definition nl : bytes := [10%N].
(** embed.py 352-363, 364-369 *)
Definition cmap_pre : bytes :=
  bs "    /CIDInit /ProcSet findresource begin" ++ nl
  ++ bs "    12 dict begin" ++ nl ++ bs "    begincmap" ++ nl
  ++ bs "    /CIDSystemInfo" ++ nl
  ++ bs "    <<" ++ nl ++ bs "/Registry (Adobe)" ++ nl ++ bs "/Ordering (UCS)" ++ nl
  ++ bs "/Supplement 0" ++ nl ++ bs ">> def" ++ nl
  ++ bs "    /CMapName /Adobe-Identity-UCS def" ++ nl ++ bs "    /CMapType 2 def" ++ nl
  ++ bs "    1 begincodespacerange" ++ nl ++ bs "    <0000> <FFFF>" ++ nl
  ++ bs "    endcodespacerange" ++ nl ++ bs "    ".
Definition cmap_post : bytes :=
  bs "    endbfchar" ++ nl ++ bs "    endcmap" ++ nl
  ++ bs "    CMapName currentdict /CMap defineresource pop" ++ nl
  ++ bs "    end" ++ nl ++ bs "    end".
(** embed.py 342-349: [_unicode_map] *)
Definition unicode_map (m : list (N * N)) : list bytes :=
  cmap_pre :: (dec (N.of_nat (length m)) ++ bs " beginbfchar" ++ nl)
  :: map (fun e => 60%N :: hexpadU 4 (snd e) ++ bs "> <" ++ utf16be_hex (fst e) ++ bs ">" ++ nl) m
  ++ [cmap_post].

(** What the model takes from fontTools about a TrueType file. *)
Record ttf := {
  ttf_name : bytes;                       (* getBestFullName().encode() *)
  ttf_dw : option Q;                      (* hmtx[".notdef"][0] * scale *)
  ttf_flags : Z; ttf_bbox : list Z; ttf_italic_angle : Z; ttf_ascent : Z;
  ttf_descent : Z; ttf_cap_height : Z; ttf_stem_v : Z;
  ttf_gid : list N -> N -> N;             (* glyph id after subsetting to the given characters *)
  ttf_file : list N -> bytes              (* the saved subset *)
}.

Section Embed.
Context {NUM : Num} {ENV : Env NUM}.
(** embed.py 312-318: [_encode_widths]; [int] truncates *)
Definition encode_widths (ws : list num) : atom :=
  AArr [AInt 0; AArr (map (fun w => AInt (ntrunc w)) ws)].
(** embed.py 293-308: [_encode_cid_gid_map]; [to_bytes(2, "big")] raises
    OverflowError for glyph ids above 0xffff *)
Definition encode_gid (g : N) : res bytes :=
  if (g <? 65536)%N then Ok [(g / 256)%N; (g mod 256)%N] else Err EValue.

(** embed.py 154-253: [Subset.to_objects] *)
Definition subset_objects (f : font) (t : ttf) (m : cidmap) (obj_id : N) : res (list (N * atom)) :=
  do _ <- assert_ (N.of_nat (length (cm_entries m)) <? 65535)%N;
  let codes := map fst (cm_entries m) in
  let tagged := AName (bs "APDFJE+" ++ sanitize_name (ttf_name t)) in
  do gids <- mapM (fun c => encode_gid (ttf_gid t codes c)) codes;
  let file := ttf_file t codes in
  Ok [(obj_id,
       ADict [(bs "Type", AName (bs "Font")); (bs "Subtype", AName (bs "Type0"));
              (bs "BaseFont", tagged); (bs "Encoding", AName (bs "Identity-H"));
              (bs "DescendantFonts", AArr [ARef (obj_id + 1)]);
              (bs "ToUnicode", ARef (obj_id + 2))]);
      ((obj_id + 1)%N,
       ADict [(bs "Type", AName (bs "Font")); (bs "Subtype", AName (bs "CIDFontType2"));
              (bs "BaseFont", tagged); (bs "CIDSystemInfo", ARef (obj_id + 3));
              (bs "FontDescriptor", ARef (obj_id + 4)); (bs "DW", AReal (ttf_dw t));
              (bs "W", encode_widths (map (charwidth f) codes));
              (bs "CIDToGIDMap", ARef (obj_id + 5))]);
      ((obj_id + 2)%N, AStream (unicode_map (cm_entries m)) []);
      ((obj_id + 3)%N, cidsys_info);
      ((obj_id + 4)%N,
       ADict [(bs "Type", AName (bs "FontDescriptor")); (bs "FontName", tagged);
              (bs "Flags", AInt (ttf_flags t)); (bs "FontBBox", AArr (map AInt (ttf_bbox t)));
              (bs "ItalicAngle", AInt (ttf_italic_angle t)); (bs "Ascent", AInt (ttf_ascent t));
              (bs "Descent", AInt (ttf_descent t)); (bs "CapHeight", AInt (ttf_cap_height t));
              (bs "StemV", AInt (ttf_stem_v t)); (bs "FontFile2", ARef (obj_id + 6))]);
      ((obj_id + 5)%N, AStream gids []);
      ((obj_id + 6)%N, AStream [file] [(bs "Length1", AInt (Z.of_nat (length file)))])].
End Embed.

(** ** Resources: the fonts of a document *)

(** resources.py 14-24, 55-68.  [Resources] is represented by the fonts in order
    of first [font(...)] call; [_builtins] and [_subsets] are its two halves. *)
Definition register (r : list font) (f : font) : list font :=
  if existsb (font_eqb f) r then r else r ++ [f].
Definition register_all (r : list font) (fs : list font) : list font := fold_left register fs r.
Definition builtins_of (r : list font) : list font := filter is_builtin r.
Definition subsets_of (r : list font) : list font := filter (fun f => negb (is_builtin f)) r.

Fixpoint index_of (f : font) (l : list font) : option nat :=
  match l with
  | [] => None
  | x :: r => if font_eqb f x then Some 0 else option_map S (index_of f r)
  end.
(** the [id] of a font: resources.py 64-66 numbers the subsets in order of
    registration ("F%i"); builtin fonts have fixed ids.  [r] is the registry at
    any time after the font was registered. *)
Definition font_id (r : list font) (f : font) : bytes :=
  match f_face f with
  | TBuiltin b => builtin_id b (f_bold f) (f_italic f)
  | TTrue _ _ _ _ =>
      match index_of f (subsets_of r) with
      | Some i => bs "F" ++ dec (N.of_nat i)
      | None => bs "F?"                       (* not registered: does not happen *)
      end
  end.

(** fonts/common.py 178-184: [BuiltinFont.to_resource] *)
Definition builtin_resource (f : font) : atom :=
  ADict [(bs "Type", AName (bs "Font")); (bs "Subtype", AName (bs "Type1"));
         (bs "BaseFont", AName (match f_face f with
                                | TBuiltin b => builtin_name b (f_bold f) (f_italic f)
                                | _ => [] end));
         (bs "Encoding", AName (bs "WinAnsiEncoding"))].

(** resources.py 33-53: [to_atoms] *)
Fixpoint zip_count {A} (l : list A) (start step : N) : list (A * N) :=
  match l with [] => [] | x :: r => (x, start) :: zip_count r (start + step) step end.
Definition font_resources (r : list font) (first_id : N) : list (bytes * atom) :=
  map (fun f => (font_id r f, builtin_resource f)) (builtins_of r)
  ++ map (fun p => (font_id r (fst p), ARef (snd p))) (zip_count (subsets_of r) first_id 7).
Definition resources_atom (r : list font) (first_id : N) : atom :=
  ADict [(bs "Font", ADict (font_resources r first_id))].

Lemma builtin_eqb_eq a b : builtin_eqb a b = true <-> a = b.
Proof. destruct a, b; cbn; split; congruence. Qed.
Lemma typeface_eqb_eq a b : typeface_eqb a b = true <-> a = b.
Proof.
  destruct a as [x|], b as [y|]; cbn; try (split; congruence).
  - rewrite builtin_eqb_eq. split; congruence.
  - rewrite !andb_true_iff, !N.eqb_eq. split; [intros [[[-> ->] ->] ->]; auto|].
    intros E; injection E; auto.
Qed.
Lemma font_eqb_eq a b : font_eqb a b = true <-> a = b.
Proof.
  destruct a, b. unfold font_eqb; cbn.
  rewrite !andb_true_iff, typeface_eqb_eq, !Bool.eqb_true_iff.
  split; [intros [[-> ->] ->]; auto|]. intros E; injection E; auto.
Qed.
Lemma font_eqb_refl a : font_eqb a a = true.
Proof. apply font_eqb_eq; auto. Qed.
Lemma font_eqb_neq a b : font_eqb a b = false <-> a <> b.
Proof. rewrite <- font_eqb_eq. destruct (font_eqb a b); intuition congruence. Qed.
