(** * Layout: laying out blocks over columns and pages.
    /repo/src/pdfje/layout/{common,paragraph,rule,pages}.py, typeset/layout.py

    Iterators without end (columns, pages) are functions from [nat]; [tee], [peek] and
    [prepend] are the identity or [scons] on them.  A generator that is read by its
    consumer as far as it goes is a list.  Exceptions are values; that a generator
    yields some columns before it fails is not visible (the consumer fails, too).
    [fuel] bounds the loops of the line breakers. *)
From Verif Require Import Base Num Fonts State Style Words Parse Render Firstfit KnuthPlass Optimum
  Common Draw.
Open Scope nat_scope.

Definition scons {A} (x : A) (s : nat -> A) : nat -> A :=
  fun i => match i with O => x | S j => s j end.
Definition sdrop {A} (n : nat) (s : nat -> A) : nat -> A := fun i => s (n + i).

Section Layout.
Context {NUM : Num} {ENV : Env NUM}.

(** ** Shaped blocks *)
(** typeset/layout.py 14-19: [ShapedText]; rule.py 59-64: [ShapedRule] *)
Inductive shaped :=
| SText (ls : list tline) (lead : num) (a : align) (height : num)
| SRule (from to : xy) (c : rgb) (height : num).
Definition sh_height (s : shaped) : num := match s with SText _ _ _ h | SRule _ _ _ h => h end.
Definition text_words (ls : list tline) : list wordlike := flat_map tl_words ls.
(** typeset/layout.py 26-32: [end_state] *)
Definition text_end_state (ls : list tline) : option state :=
  match rev (text_words ls) with w :: _ => Some (wl_state w) | [] => None end.
(** typeset/layout.py 34-40: [pre_state] *)
Definition text_pre_state (ls : list tline) : option state :=
  match text_words ls with w :: _ => Some (wl_state w) | [] => None end.
(** typeset/layout.py 21-24; rule.py 66-71 *)
Definition sh_ops (s : shaped) (pos : xy) (width : num) : list op :=
  match s with
  | SText ls lead a _ => render_text (px pos) (py pos) (text_pre_state ls) width ls lead a
  | SRule p q c _ => [Om (px p) (py p); Ol (px q) (py q); ORG c; OS]
  end.

(** ** Columns and pages being filled: layout/common.py *)
(** 60-82: [ColumnFill] *)
Record colfill := mkCol { cf_box : column; cf_blocks : list (xy * shaped); cf_free : num }.
Definition cf_new (c : column) : colfill := mkCol c [] (c_height c).
Definition cf_cursor (c : colfill) : xy := add_y (c_origin (cf_box c)) (cf_free c).
Definition cf_add (c : colfill) (s : shaped) : colfill :=
  mkCol (cf_box c) (cf_blocks c ++ [(cf_cursor c, s)]) (nsub (cf_free c) (sh_height s)).
(** 80-82: [__iter__] *)
Definition cf_ops (c : colfill) : list op :=
  flat_map (fun p => sh_ops (snd p) (fst p) (c_width (cf_box c))) (cf_blocks c).

(** 88-99: [PageFill] *)
Record pagefill := mkPF { pf_base : page drawing; pf_todo : list colfill; pf_done : list colfill }.
Definition pf_new (p : page drawing) : pagefill := mkPF p (map cf_new (pg_columns p)) [].
Definition pf_reopen (p : pagefill) : res pagefill :=
  match rev (pf_done p) with
  | [] => Err EIndex
  | c :: r => Ok (mkPF (pf_base p) (c :: pf_todo p) (rev r))
  end.
(** 102-108: [fill_pages]; [flatten(p.todo for p in branch)].  The i-th column is found on the first
    i + 1 pages, provided that every page has one to fill: this holds, as pages have
    at least one column (page.py 138) and the page reopened has one. *)
Definition no_col : colfill := mkCol (mkColumn (mkXY n0 n0) n0 n0) [] n0.
Definition flat_todo (doc : nat -> pagefill) : nat -> colfill :=
  fun i => nth i (concat (map (fun k => pf_todo (doc k)) (seq 0 (S i)))) no_col.
(** 111-134: [_fill_into]: the pages completed, the one reopened, the following ones.
    One page is used at a time; [fuel] is their number. *)
Fixpoint fill_loop (fuel : nat) (filled : list colfill) (doc : nat -> pagefill)
  : res (list pagefill * (nat -> pagefill)) :=
  match fuel with
  | O => Err EFuel
  | S f =>
      let p := doc 0 in
      let cols := firstn (List.length (pf_todo p)) filled in
      let rest := skipn (List.length (pf_todo p)) filled in
      let p' := mkPF (pf_base p) (skipn (List.length cols) (pf_todo p)) (pf_done p ++ cols) in
      match rest with
      | [] => do r <- pf_reopen p'; Ok ([], scons r (sdrop 1 doc))
      | _ => do x <- fill_loop f rest (sdrop 1 doc); Ok (p' :: fst x, snd x)
      end
  end.
Definition fill_into (filled : list colfill) (doc : nat -> pagefill)
  : res (list pagefill * (nat -> pagefill)) :=
  match filled with
  | [] => Ok ([], doc)
  | _ => fill_loop (S (List.length filled)) filled doc
  end.

(** ** Paragraphs: layout/paragraph.py *)
(** 113-140: [Paragraph]; [p_optimal]: the tolerance and the other parameters *)
Record para := mkPara {
  p_content : list item; p_style : style; p_align : align; p_indent : num;
  p_orphans : bool; p_optimal : option (num * params) }.
Definition is_justify (a : align) : bool := match a with AJustify => true | _ => false end.
(** firstfit.py 16-37 and optimum.py 282-364: the chunks.  Their height is
    [len(ls) * lead] (for the optimal algorithm [0] and [lead] are written for no line
    and one empty line, 299, 303, 321). *)
Definition chunk (lead : num) (a : align) (ls : list tline) : shaped :=
  SText ls lead a (nmul (nZ (Z.of_nat (List.length ls))) lead).
Definition ff_tline (l : line) : tline := mkTLine NoOp (l_words l) (l_width l).
Definition opt_tline (l : oline) : tline := mkTLine NoOp (ol_words l) (ol_width l).
Definition shape (fuel : nat) (p : para) (ws : list wordlike) (cols : nat -> num * num)
           (allow_empty : bool) (lead : num) : res (list (list tline)) :=
  match p_optimal p with
  | None => rmap (map (map ff_tline))
              (ff_shape fuel ws cols allow_empty lead (p_orphans p) (is_justify (p_align p)))
  | Some (tolerance, P) => rmap (map (map opt_tline))
              (opt_shape fuel ws cols allow_empty lead (p_orphans p) (negb (is_justify (p_align p)))
                         tolerance P)
  end.
(** 186-215: [_fill_paragraph].  The last component: was all of the text used? *)
Fixpoint add_chunks (cs : nat -> colfill) (chunks : list shaped) : list colfill :=
  match chunks with
  | [] => []
  | s :: r => cf_add (cs 0) s :: add_chunks (sdrop 1 cs) r
  end.
Definition states_after (chunks : list (list tline)) (st : state) : state :=
  fold_left (fun st ls => match text_end_state ls with Some s => s | None => st end) chunks st.
Definition fill_paragraph (fuel : nat) (p : para) (txt : list passage) (cs : nat -> colfill)
           (st : state) (lead : num) : res (list colfill * state * bool) :=
  let allow_empty := match cf_blocks (cs 0) with [] => false | _ => true end in
  do x <- into_words txt st;
  let '(cmd, ws, ex) := x in
  let st1 := apply cmd st in
  do ws' <- indent_first ws (p_indent p);
  do chunks <- shape fuel p ws' (fun i => (c_width (cf_box (cs i)), cf_free (cs i))) allow_empty lead;
  Ok (add_chunks cs (map (chunk lead (p_align p)) chunks), states_after chunks st1, ex).
(** 149-171: the loop of [into_columns]; [cs 0] is [col].  [[*filled, col], state = ...]
    is a ValueError for no columns.  When the words did not use up their group of
    passages, [splitlines] ends (see Parse and Draw). *)
Fixpoint para_loop (fuel : nat) (p : para) (gs : list (list passage)) (cs : nat -> colfill)
         (st : state) (lead : num) : res (list colfill) :=
  match gs with
  | [] => Ok [cs 0]
  | g :: r =>
      do x <- fill_paragraph fuel p g cs st lead;
      let '(done, st', ex) := x in
      match rev done with
      | [] => Err EValue
      | col :: filled =>
          if ex then
            do out <- para_loop fuel p r (scons col (sdrop (List.length done) cs)) st' lead;
            Ok (rev filled ++ out)
          else Ok (rev filled ++ [col])
      end
  end.
(** 142-171: [Paragraph.into_columns] *)
Definition para_columns (fuel : nat) (p : para) (base : full) (cs : nat -> colfill)
  : res (list colfill) :=
  let sty := full_or base (p_style p) in
  let st := as_state sty in
  let ps := flatten sty (p_style p) (p_content p) in
  para_loop fuel p (splitlines ps) cs st (max_lead ps st).
(** the fonts registered: 146, 147 *)
Definition para_fonts (p : para) (base : full) : list font :=
  let sty := full_or base (p_style p) in
  st_font (as_state sty) :: flatten_fonts sty (p_style p) (p_content p).

(** ** Rules: layout/rule.py 38-56 *)
Definition rule_columns (c : rgb) (margin : sides) (cs : nat -> colfill) : list colfill :=
  let col := cs 0 in
  let height := nadd (s_top margin) (s_bottom margin) in
  let o := c_origin (cf_box col) in
  let y := nsub (nadd (py o) (cf_free col)) (s_top margin) in
  let x := nadd (px o) (s_left margin) in
  let x' := nsub (nadd (px o) (c_width (cf_box col))) (s_right margin) in
  (if nltb (cf_free col) height then [col] else [])
  ++ [cf_add col (SRule (mkXY x y) (mkXY x' y) c height)].

(** ** Automatic pages: layout/pages.py *)
Inductive block := BPara (p : para) | BRule (c : rgb) (margin : sides).
Definition block_columns (fuel : nat) (b : block) (base : full) (cs : nat -> colfill)
  : res (list colfill) :=
  match b with
  | BPara p => para_columns fuel p base cs
  | BRule c m => Ok (rule_columns c m cs)
  end.
Definition block_fonts (b : block) (base : full) : list font :=
  match b with BPara p => para_fonts p base | BRule _ _ => [] end.
(** 57-62: the loop over the blocks: the pages completed, and the pages left *)
Fixpoint auto_loop (fuel : nat) (blocks : list block) (base : full) (doc : nat -> pagefill)
  : res (list pagefill * (nat -> pagefill)) :=
  match blocks with
  | [] => Ok ([], doc)
  | b :: r =>
      do cols <- block_columns fuel b base (flat_todo doc);
      do x <- fill_into cols doc;
      do y <- auto_loop fuel r base (snd x);
      Ok (fst x ++ fst y, snd y)
  end.
(** 51-65: [AutoPage.render]: for each page the template and the columns shown on it *)
Definition auto_pages (fuel : nat) (blocks : list block) (template : Z -> page drawing)
           (base : full) (pnum : Z) : res (list (page drawing * list colfill)) :=
  do x <- auto_loop fuel blocks base (fun i => pf_new (template (pnum + Z.of_nat i)%Z));
  let last := snd x 0 in
  Ok (map (fun p => (pf_base p, pf_done p)) (fst x)
      ++ [(pf_base last, pf_done last ++ pf_todo last)]).
End Layout.
