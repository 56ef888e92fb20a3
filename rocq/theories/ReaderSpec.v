(** * ReaderSpec: extracting the text of a PDF file.

    PDF 32000-1: 7.5.5 (trailer), 7.7.2-7.7.3 (catalog, page tree, pages), 7.3.8 and 7.4
    (streams and filters), 9.4 (text operators), 9.6.6 and 9.10 (encodings, ToUnicode).
    Written from the standard, not from the code.  The reader gives up ([None]) on
    anything it does not know: page trees of more than one level, filters other than
    FlateDecode, fonts which are neither Type1 with WinAnsiEncoding nor Type0 with a
    ToUnicode map, text operators other than TJ. *)
From Coq Require Import String.
From Verif Require Import Base Gfmt Atoms PdfSpec FontSpec ContentSpec.
Local Open Scope list_scope.
Open Scope nat_scope.
(** [inflate]: decompression *)
Section Reader.
Variable inflate : bytes -> option bytes.

Definition robj : Type := N * pobj * option bytes.
Definition fetch (objs : list robj) (id : N) : option (pobj * option bytes) :=
  option_map (fun o => (snd (fst o), snd o)) (find (fun o => (fst (fst o) =? id)%N) objs).
(** the object, or the one referred to *)
Definition deref (objs : list robj) (o : pobj) : option (pobj * option bytes) :=
  match o with PRef id _ => fetch objs id | _ => Some (o, None) end.
Definition entry_of (k : string) (o : pobj) : option pobj :=
  match o with PDict d => lookup (bs k) d | _ => None end.
Definition obind {A B} (x : option A) (f : A -> option B) : option B := match x with Some a => f a | None => None end.
(** the (dereferenced) value of a key *)
Definition follow (objs : list robj) (k : string) (o : pobj) : option (pobj * option bytes) :=
  obind (entry_of k o) (deref objs).
Definition is_name (k : string) (o : option pobj) : bool :=
  match o with Some (PName n) => bytes_eqb n (bs k) | _ => false end.
(** the decoded data of a stream *)
Definition stream_data (s : pobj * option bytes) : option bytes :=
  obind (snd s) (fun data =>
    match entry_of "Filter" (fst s) with
    | None => Some data
    | Some f => if is_name "FlateDecode" (Some f) then inflate data else None
    end).

(** how codes are mapped to characters *)
Inductive coding := WinAnsi | Cmap (es : list FontSpec.entry).
Fixpoint map_opt {A B} (f : A -> option B) (l : list A) : option (list B) :=
  match l with
  | [] => Some []
  | x :: r => obind (f x) (fun y => option_map (cons y) (map_opt f r))
  end.
Definition decode (c : coding) (b : bytes) : option str :=
  match c with WinAnsi => map_opt cp1252_decode b | Cmap es => extract es b end.
Definition font_coding (objs : list robj) (f : pobj) : option coding :=
  if is_name "Type1" (entry_of "Subtype" f) && is_name "WinAnsiEncoding" (entry_of "Encoding" f) then Some WinAnsi
  else if is_name "Type0" (entry_of "Subtype" f) then
    obind (follow objs "ToUnicode" f) (fun s =>
    obind (stream_data s) (fun d =>
    option_map (fun blocks => Cmap (flat_map snd blocks)) (cmap_blocks d)))
  else None.

(** a font of a page *)
Record rfont := mkRFont { rf_base : option bytes; rf_coding : coding }.
Definition read_font (objs : list robj) (f : pobj) : option rfont :=
  option_map (mkRFont (match entry_of "BaseFont" f with Some (PName n) => Some n | _ => None end)) (font_coding objs f).

(** ** Pages: their box, rotation, fonts and operators *)
Record vpage := mkVPage { vp_box : option pobj; vp_rotate : option pobj; vp_fonts : bytes -> option rfont; vp_instrs : list instr }.
Definition dict_of (o : pobj * option bytes) : option (list (bytes * pobj)) :=
  match fst o with PDict d => Some d | _ => None end.
Definition page_read (objs : list robj) (page : pobj) : option vpage :=
  obind (follow objs "Resources" page) (fun res =>
  obind (follow objs "Font" (fst res)) (fun fd =>
  obind (dict_of fd) (fun fonts =>
  obind (follow objs "Contents" page) (fun s =>
  obind (stream_data s) (fun d =>
  option_map (mkVPage (entry_of "MediaBox" page) (entry_of "Rotate" page)
                (fun n => obind (lookup n fonts) (fun f => obind (deref objs f) (fun f => read_font objs (fst f)))))
             (read_content d)))))).
Definition pages_read (objs : list robj) (root : pobj) : option (list vpage) :=
  obind (follow objs "Pages" root) (fun tree =>
  match entry_of "Kids" (fst tree) with
  | Some (PArr kids) =>
      map_opt (fun k => obind (deref objs k) (fun p =>
        if is_name "Page" (entry_of "Type" (fst p)) then page_read objs (fst p) else None)) kids
  | _ => None
  end).
Definition pdf_pages (file : bytes) : option (list vpage) :=
  obind (read_file file) (fun f =>
  obind (lookup (bs "Root") (snd f)) (fun r =>
  obind (deref (fst f) r) (fun root => pages_read (fst f) (fst root)))).
End Reader.

(** ** Text *)
(** the strings of a TJ array *)
Fixpoint tj_text (c : option coding) (l : list pobj) : option str :=
  match l with
  | [] => Some []
  | PStr b :: r => obind c (fun c => obind (decode c b) (fun t => option_map (app t) (tj_text (Some c) r)))
  | _ :: r => tj_text c r
  end.
(** the text shown by the operators; [fonts]: the fonts of the page, [c]: the current font *)
Fixpoint instrs_text (fonts : bytes -> option rfont) (l : list instr) (c : option coding) : option str :=
  match l with
  | [] => Some []
  | (name, args) :: r =>
      if bytes_eqb name (bs "Tf") then
        match args with
        | [PName n; _] => obind (fonts n) (fun f => instrs_text fonts r (Some (rf_coding f)))
        | _ => None
        end
      else if bytes_eqb name (bs "TJ") then
        match args with
        | [PArr a] => obind (tj_text c a) (fun t => option_map (app t) (instrs_text fonts r c))
        | _ => None
        end
      else if bytes_eqb name (bs "Tj") || bytes_eqb name [39%N] || bytes_eqb name [34%N] then None
      else instrs_text fonts r c
  end.
Definition page_text (p : vpage) : option str := instrs_text (vp_fonts p) (vp_instrs p) None.
(** the text of each page *)
Definition pdf_text (inflate : bytes -> option bytes) (file : bytes) : option (list str) :=
  obind (pdf_pages inflate file) (map_opt page_text).
