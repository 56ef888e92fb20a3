(** * DocumentSpec: what the structure of a written document should be, in terms of
    pages, objects and references. *)
From Coq Require Import String.
From Verif Require Import Base Gfmt Atoms Num Fonts State Style Words Parse Render Firstfit KnuthPlass
  Optimum Common Draw Layout FontsUsed Document.
Local Open Scope list_scope.
Open Scope nat_scope.

(** the indirect references in an object *)
Fixpoint refs (a : atom) : list N :=
  match a with
  | ARef t => [t]
  | AArr l => flat_map refs l
  | ADict l => flat_map (fun kv => refs (snd kv)) l
  | AStream _ l => flat_map (fun kv => refs (snd kv)) l
  | _ => []
  end.
(** [a] is the (only) object with this id *)
Definition object (objs : list (N * atom)) (i : N) (a : atom) : Prop :=
  In (i, a) objs /\ forall b, In (i, b) objs -> b = a.
Definition count_up (start n : nat) : list N := map N.of_nat (seq start n).

Section Spec.
Context {NUM : Num} {ENV : Env NUM}.
(** a page of the document: its own drawings, and what was laid out on it *)
Definition laid_page : Type := page drawing * list op.
(** [laid fuel base items n pages]: given that [n] pages come before, [items] are laid
    out as [pages]: a [Page] gives one page, an [AutoPage] the pages of its layout (see
    Layout and Properties_Layout), starting with the next page number *)
Inductive laid (fuel : nat) (base : full) : list ditem -> nat -> list laid_page -> Prop :=
| laid_nil n : laid fuel base [] n []
| laid_page_item p items n pages :
    laid fuel base items (n + 1) pages -> laid fuel base (DPage p :: items) n ((p, []) :: pages)
| laid_auto_item blocks template items n ps pages :
    auto_pages fuel blocks template base (Z.of_nat (n + 1)) = Ok ps ->
    laid fuel base items (n + List.length ps) pages ->
    laid fuel base (DAuto blocks template :: items) n
         (map (fun p => (fst p, flat_map cf_ops (snd p))) ps ++ pages).
(** the operators of a page: its drawings in order, then what was laid out on it *)
Definition page_ops (base : full) (p : laid_page) : res (list op) :=
  do l <- mapM (fun d => draw_ops d base) (pg_content (fst p)); Ok (concat l ++ snd p).
(** how the pages are built, given the number of pages of each item *)
Fixpoint built_on (items : list ditem) (counts : list nat) (before : nat) : list (page drawing) :=
  match items, counts with
  | DPage p :: r, n :: cs => repeat p n ++ built_on r cs (before + n)
  | DAuto _ template :: r, n :: cs =>
      map (fun k => template (Z.of_nat (before + k + 1))) (seq 0 n) ++ built_on r cs (before + n)
  | _, _ => []
  end.
(** a [Page] is one page, an [AutoPage] at least one *)
Definition item_count (i : ditem) (n : nat) : Prop :=
  match i with DPage _ => n = 1 | DAuto _ _ => 1 <= n end.

(** the value of a key of a dictionary *)
Definition get (k : string) (a : atom) : option atom :=
  match a with
  | ADict l => option_map snd (find (fun kv => if list_eq_dec N.eq_dec (fst kv) (bs k) then true else false) l)
  | _ => None
  end.
(** object [i] is a composite font (ISO 32000-1, 9.7): its descendant has the same name, a
    character collection, and a descriptor (of that name) which has the font's file, reduced
    to some characters, with its length *)
Definition composite_font (objs : list (N * atom)) (t : ttf) (i : N) : Prop :=
  exists j s k l d0 d1 d2 ds name codes, let file := ttf_file t codes in
  object objs i d0 /\ get "Type" d0 = Some (AName (bs "Font")) /\ get "Subtype" d0 = Some (AName (bs "Type0"))
  /\ get "BaseFont" d0 = Some (AName name) /\ get "Encoding" d0 = Some (AName (bs "Identity-H"))
  /\ get "DescendantFonts" d0 = Some (AArr [ARef j])
  /\ object objs j d1 /\ get "Type" d1 = Some (AName (bs "Font")) /\ get "Subtype" d1 = Some (AName (bs "CIDFontType2"))
  /\ get "BaseFont" d1 = Some (AName name)
  /\ get "CIDSystemInfo" d1 = Some (ARef s) /\ object objs s ds
  /\ get "Registry" ds = Some (ALit (bs "Adobe")) /\ get "Ordering" ds = Some (ALit (bs "UCS")) /\ get "Supplement" ds = Some (AInt 0)
  /\ get "FontDescriptor" d1 = Some (ARef k)
  /\ object objs k d2 /\ get "Type" d2 = Some (AName (bs "FontDescriptor")) /\ get "FontName" d2 = Some (AName name)
  /\ get "FontFile2" d2 = Some (ARef l) /\ object objs l (AStream [file] [(bs "Length1", AInt (Z.of_nat (List.length file)))]).
(** [a] is the font resource for [f]: for a standard font a dictionary with its name, for
    an embedded font a reference to a composite font of which the descendant's
    descriptor has the font's file, reduced to some characters *)
Definition describes (objs : list (N * atom)) (ttf_of : font -> ttf) (f : font) (a : atom) : Prop :=
  match f_face f with
  | TBuiltin b =>
      get "Type" a = Some (AName (bs "Font")) /\ get "Subtype" a = Some (AName (bs "Type1"))
      /\ get "BaseFont" a = Some (AName (builtin_name b (f_bold f) (f_italic f)))
      /\ get "Encoding" a = Some (AName (bs "WinAnsiEncoding"))
  | TTrue _ _ _ _ =>
      exists i, a = ARef i /\ composite_font objs (ttf_of f) i
  end.
End Spec.
