(** * Document: whole documents.
    /repo/src/pdfje/{document,page,resources}.py, atoms.py 212-233

    A generator that may fail is the list of what it yields before it ends, and how it
    ends.  Simplifications: the contents of documents, pages and blocks are lists (not
    one-shot iterators), and templates are total functions. *)
From Coq Require Import String QArith.
From Verif Require Import Base Gfmt Atoms Num Fonts State Style Words Parse Render Firstfit KnuthPlass
  Optimum Common Draw Layout.
Local Open Scope list_scope.
Open Scope nat_scope.

(** How writing ends: the RuntimeError of document.py 142-145, or any other exception. *)
Inductive ending := Finished | NoPages | Raised (e : exn).

Section Document.
Context {NUM : Num} {ENV : Env NUM}.

(** ** What a user gives *)
(** pages.py 36-49: [AutoPage]; strings in its content are paragraphs (68-69) *)
Inductive ditem := DPage (p : page drawing) | DAuto (blocks : list block) (template : Z -> page drawing).
(** paragraph.py 113-140: [Paragraph(s)]; [tolerance] and [P] are the default parameters *)
Definition plain_para (default : num * params) (s : str) : para :=
  mkPara [IStr s] style_empty ALeft n0 true (Some default).
(** page.py 129-141, units.py 41: [Page()] *)
Definition A4 : xy := mkXY (nZ 595) (nZ 842).
Definition default_page : page drawing :=
  mkPage [] A4 0 [mkColumn (mkXY (nZ 72) (nZ 72)) (nsub (nsub (nZ 595) (nZ 72)) (nZ 72))
                           (nsub (nsub (nZ 842) (nZ 72)) (nZ 72))].
(** document.py 56-69: [Document.__init__] *)
Inductive dcontent := CNone | CStr (s : str) | CBlock (b : block) | CItems (l : list ditem).
Definition doc_items (default : num * params) (c : dcontent) : list ditem :=
  match c with
  | CNone => [DPage default_page]
  | CStr s => [DAuto [BPara (plain_para default s)] (fun _ => default_page)]
  | CBlock b => [DAuto [b] (fun _ => default_page)]
  | CItems l => l
  end.

(** ** Rendered pages *)
(** page.py 58-62: [RenderedPage]; its stream are the drawings of the page, then [rp_extra] *)
Record rpage := mkRP { rp_rotate : Z; rp_size : xy; rp_content : list drawing; rp_extra : list op }.
(** page.py 155-162, 164-174: [Page.render], [Page.fill] *)
Definition rpage_of (p : page drawing) (extra : list op) : rpage :=
  mkRP (pg_rotate p) (pg_size p) (pg_content p) extra.
(** What a page generator yields: a page, and the fonts that were registered (by the
    blocks) since the page before. *)
Definition yielded : Type := list font * rpage.

(** pages.py 51-62: the loop of [AutoPage.render]; [pending] are the fonts registered *)
Fixpoint auto_gen (fuel : nat) (blocks : list block) (base : full) (pending : list font)
         (doc : nat -> pagefill) : list (list font * pagefill) * res (list font * (nat -> pagefill)) :=
  match blocks with
  | [] => ([], Ok (pending, doc))
  | b :: r =>
      let fs := pending ++ block_fonts b base in
      match (do cols <- block_columns fuel b base (flat_todo doc); fill_into cols doc) with
      | Err e => ([], Err e)
      | Ok ([], doc') => auto_gen fuel r base fs doc'
      | Ok (p :: ps, doc') =>
          let x := auto_gen fuel r base [] doc' in
          ((fs, p) :: map (pair []) ps ++ fst x, snd x)
      end
  end.
(** page.py 155-162; pages.py 51-65: [render] *)
Definition item_gen (fuel : nat) (base : full) (i : ditem) (pnum : Z) : list yielded * option exn :=
  match i with
  | DPage p => ([([], rpage_of p [])], None)
  | DAuto blocks template =>
      let x := auto_gen fuel blocks base [] (fun i => pf_new (template (pnum + Z.of_nat i)%Z)) in
      let pages := map (fun y => (fst y, rpage_of (pf_base (snd y)) (flat_map cf_ops (pf_done (snd y))))) (fst x) in
      match snd x with
      | Err e => (pages, Some e)
      | Ok (fs, doc) =>
          let last := doc 0 in
          (pages ++ [(fs, rpage_of (pf_base last) (flat_map cf_ops (pf_done last ++ pf_todo last)))], None)
      end
  end.
(** document.py 135-139: [flatten(p.render(res, style, pagenum + 1) for p in items)].
    [pagenum] is read when the next item is asked for its first page: it is the number of
    the page written last. *)
Fixpoint pages_gen (fuel : nat) (base : full) (items : list ditem) (pagenum : Z)
  : list yielded * option exn :=
  match items with
  | [] => ([], None)
  | i :: r =>
      let x := item_gen fuel base i (pagenum + 1)%Z in
      match snd x with
      | Some e => x
      | None => let y := pages_gen fuel base r (pagenum + Z.of_nat (List.length (fst x)))%Z in
                (fst x ++ fst y, snd y)
      end
  end.

(** ** Objects *)
(** page.py 158-162: the stream of a page: each drawing registers its fonts and is written *)
Fixpoint drawings_bytes (r : list font) (base : full) (ds : list drawing) (cs : cstate)
  : res (list bytes * list font * cstate) :=
  match ds with
  | [] => Ok ([], r, cs)
  | d :: l =>
      let r1 := register_all r (draw_fonts d base) in
      do ops <- draw_ops d base;
      do x <- ops_bytes r1 ops cs;
      do y <- drawings_bytes r1 base l (snd x);
      let '(b, r2, cs2) := y in
      Ok (fst x ++ b, r2, cs2)
  end.
Definition page_bytes (r : list font) (base : full) (p : rpage) (cs : cstate)
  : res (list bytes * list font * cstate) :=
  do x <- drawings_bytes r base (rp_content p) cs;
  let '(b, r1, cs1) := x in
  do y <- ops_bytes r1 (rp_extra p) cs1;
  Ok (b ++ fst y, r1, snd y).
(** page.py 64-79: the first object of [to_atoms] *)
Definition page_dict (p : rpage) (i : N) : atom :=
  ADict [(bs "Type", AName (bs "Page")); (bs "Parent", ARef 2);
         (bs "MediaBox", AArr (map AReal [Some (0 # 1)%Q; Some (0 # 1)%Q;
                                          nto_Q (px (rp_size p)); nto_Q (py (rp_size p))]));
         (bs "Contents", ARef (i + 1)); (bs "Resources", ARef 3); (bs "Rotate", AInt (rp_rotate p))].
(** document.py 132-140: the loop over the pages.  (A stream is produced when it is
    written, right after the page's dictionary was.) *)
Fixpoint page_objects (base : full) (pages : list yielded) (i : N) (r : list font) (cs : cstate)
  : list (N * atom) * res (list font * cstate) :=
  match pages with
  | [] => ([], Ok (r, cs))
  | (fs, p) :: l =>
      match page_bytes (register_all r fs) base p cs with
      | Err e => ([(i, page_dict p i)], Err e)
      | Ok (b, r1, cs1) =>
          let x := page_objects base l (i + 2) r1 cs1 in
          ((i, page_dict p i) :: ((i + 1)%N, AStream b []) :: fst x, snd x)
      end
  end.
(** resources.py 26-31: [to_objects]; [ttf_of] are the font files.  Simplification: if a
    font cannot be embedded, none of its objects are written. *)
Fixpoint font_objects (ttf_of : font -> ttf) (cs : cstate) (fs : list (font * N))
  : list (N * atom) * option exn :=
  match fs with
  | [] => ([], None)
  | (f, i) :: l =>
      match subset_objects f (ttf_of f) (cs_get cs f) i with
      | Err e => ([], Some e)
      | Ok objs => let x := font_objects ttf_of cs l in (objs ++ fst x, snd x)
      end
  end.
(** document.py 177-180: [islice(count(4, step=2), n)] *)
Fixpoint page_ids (i : N) (n : nat) : list N :=
  match n with O => [] | S m => i :: page_ids (i + 2) m end.
(** document.py 155-187: [_CATALOG_OBJ], [_write_headers] *)
Definition catalog : N * atom :=
  (1%N, ADict [(bs "Type", AName (bs "Catalog")); (bs "Pages", ARef 2)]).
Definition headers (n : nat) (resources : atom) : list (N * atom) :=
  [catalog;
   (2%N, ADict [(bs "Type", AName (bs "Pages")); (bs "Kids", AArr (map ARef (page_ids 4 n)));
                (bs "Count", AInt (Z.of_nat n))]);
   (3%N, resources)].
(** document.py 128-152: [_doc_objects]; [obj_id] is the id of the last page *)
Definition doc_objects (fuel : nat) (ttf_of : font -> ttf) (items : list ditem) (base : full)
  : list (N * atom) * ending :=
  let ps := pages_gen fuel base items 0 in
  let x := page_objects base (fst ps) 4 [] [] in
  match snd x, snd ps with
  | Err e, _ => (fst x, Raised e)
  | Ok _, Some e => (fst x, Raised e)
  | Ok (r, cs), None =>
      match List.length (fst ps) with
      | O => (fst x, NoPages)
      | S n =>
          let obj_id := (4 + 2 * N.of_nat n)%N in
          let first_font_id := (obj_id + 2)%N in
          let y := font_objects ttf_of cs (zip_count (subsets_of r) first_font_id 7) in
          match snd y with
          | Some e => (fst x ++ fst y, Raised e)
          | None => (fst x ++ fst y
                     ++ headers (N.to_nat ((obj_id - 4) / 2) + 1) (resources_atom r first_font_id), Finished)
          end
      end
  end.

(** ** Bytes *)
Variable compress : bytes -> bytes.
(** atoms.py 212-225: the chunks of the objects, one per object; an object that cannot be
    written ends it *)
Fixpoint chunks_gen (objs : list (N * atom)) (e : ending) : list bytes * ending :=
  match objs with
  | [] => ([], e)
  | o :: l =>
      match write_obj compress o with
      | Err x => ([], Raised x)
      | Ok b => let y := chunks_gen l e in (b :: fst y, snd y)
      end
  end.
(** atoms.py 212-233: [write]; the trailer is one chunk here *)
Definition write_gen (fid : bytes) (objs : list (N * atom)) (e : ending) : list bytes * ending :=
  let x := chunks_gen objs e in
  match snd x with
  | Finished =>
      let offs := accumulate_from 0 (map (fun c => N.of_nat (List.length c)) (header :: fst x)) in
      match rev offs with
      | xref :: resources :: pagetree :: catalog :: rest =>
          match write_trailer compress fid (catalog :: pagetree :: resources :: rev rest) xref with
          | Ok t => (header :: fst x ++ [t], Finished)
          | Err e => (header :: fst x, Raised e)
          end
      | _ => (header :: fst x, Raised EValue)
      end
  | e => (header :: fst x, e)
  end.
(** document.py 120-121: [_write_iter], for a document with the given style *)
Definition write_iter (fuel : nat) (ttf_of : font -> ttf) (items : list ditem) (sty : style) (fid : bytes)
  : list bytes * ending :=
  let x := doc_objects fuel ttf_of items (full_or full_default sty) in
  write_gen fid (fst x) (snd x).

(** ** Targets: files by path.  [writelines] writes the chunks one after another until
    the generator ends (CPython's [BufferedWriter] and [BytesIO] do so). *)
Definition writelines (file : bytes) (g : list bytes * ending) : bytes * ending :=
  (fold_left (fun f c => f ++ c) (fst g) file, snd g).
(** document.py 117-118: [write(file)], for a file positioned at its end *)
Definition write_fileobj (file : bytes) (g : list bytes * ending) : bytes * ending := writelines file g.
(** document.py 123-125: [_write_to_path]; opening with "wb" empties the file *)
Definition filesystem : Type := str -> option bytes.
Definition path_eqb (p q : str) : bool := if list_eq_dec N.eq_dec p q then true else false.
Definition fs_set (fs : filesystem) (p : str) (b : bytes) : filesystem :=
  fun q => if path_eqb p q then Some b else fs q.
Definition write_path (fs : filesystem) (p : str) (g : list bytes * ending) : filesystem * ending :=
  let opened := fs_set fs p [] in
  let x := writelines (match opened p with Some b => b | None => [] end) g in
  (fs_set opened p (fst x), snd x).
End Document.
