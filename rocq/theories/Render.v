(** * Render: content-stream operators.

    The model renders to a list of operators; [ops_bytes] writes them as the code
    does.  (The code yields the bytes of the operators one after another; the only
    state involved is the code table of each embedded font, threaded here.) *)
From Coq Require Import String.
From Verif Require Import Base Gfmt Atoms Num Fonts State Words.
Local Open Scope list_scope.
Open Scope nat_scope.

(** common.py 183-195: [Align] *)
Inductive align := ALeft | ACenter | ARight | AJustify.

Section Render.
Context {NUM : Num} {ENV : Env NUM}.

(** What goes into a TJ array: a fragment (its text and kerning) or a space.  *)
Inductive titem := ISlug (s : slug) | ISpace (t : tspace) (st : state).

Inductive op :=
| OBT | OET | OTd (x y : num) | OTD (x y : num) | OTstar | OTL (l : num)
| OTf (f : font) (size : num) | Org (c : rgb) | OTJ (items : list titem)
| Om (x y : num) | Ol (x y : num) | Oc (x1 y1 x2 y2 x3 y3 : num) | Ore (x y w h : num)
| OrgD (c : rgb) | ORG (c : rgb)           (* as written by the drawings *)
| Ob | OB | Of | Os | OS | On.

(** state.py 36-37, 52-53, 74-75, 85-89, 99-100, 110-113: the commands' bytes *)
Fixpoint cmd_ops (c : command) : list op :=
  match c with
  | SetFont f z => [OTf f z]
  | SetColor c => [Org c]
  | Chain l => flat_map cmd_ops l
  | NoOp | SetLineSpacing _ | SetHyphens _ => []
  end.
(** state.py 128-130: [State.__iter__] *)
Definition state_ops (s : state) : list op := [OTf (st_font s) (st_size s); Org (st_color s)].

(** words.py 210-216: [Slug.encode_into_line]; 296-303: [MixedSlug.encode_into_line] *)
Fixpoint segs_into_line (segs : list (slug * command)) (ln : list titem) : list op * list titem :=
  match segs with
  | [] => ([], ln)
  | (s, c) :: r =>
      let (ops, ln') := segs_into_line r [] in
      (OTJ (ln ++ [ISlug s]) :: cmd_ops c ++ ops, ln')
  end.
Definition box_into_line (b : box) (ln : list titem) : list op * list titem :=
  match b with
  | BSlug s => ([], ln ++ [ISlug s])
  | BMixed segs _ => segs_into_line segs ln
  end.
Fixpoint boxes_into_line (l : list box) (ln : list titem) : list op * list titem :=
  match l with
  | [] => ([], ln)
  | b :: r => let (o1, ln1) := box_into_line b ln in
              let (o2, ln2) := boxes_into_line r ln1 in (o1 ++ o2, ln2)
  end.
(** words.py 461-470: [Word.encode_into_line] *)
Definition word_into_line (w : word) (ln : list titem) : list op * list titem :=
  let (o, ln') := boxes_into_line (w_boxes w) ln in
  (o, match w_tail w with Some t => ln' ++ [ISpace t (w_state w)] | None => ln' end).
(** words.py 542-548: [WithCmd.encode_into_line] *)
Fixpoint into_line (w : wordlike) (ln : list titem) : list op * list titem :=
  match w with
  | WBox b => box_into_line b ln
  | WWord w => word_into_line w ln
  | WCmd w c => let (o, ln') := into_line w ln in (o ++ OTJ ln' :: cmd_ops c, [])
  end.
Fixpoint words_into_line (l : list wordlike) (ln : list titem) : list op * list titem :=
  match l with
  | [] => ([], ln)
  | w :: r => let (o1, ln1) := into_line w ln in
              let (o2, ln2) := words_into_line r ln1 in (o1 ++ o2, ln2)
  end.
(** [Line.__iter__]: firstfit.py 193-197, optimum.py 188-192 *)
Definition line_ops (ws : list wordlike) : list op :=
  let (o, ln) := words_into_line ws [] in o ++ [OTJ ln].

(** A line of text: its operators (possibly after a command, draw.py 364-375) and
    the width used to align it.  typeset/layout.py 57-67 *)
Record tline := mkTLine { tl_cmd : command; tl_words : list wordlike; tl_width : num }.
Definition tline_ops (l : tline) : list op := cmd_ops (tl_cmd l) ++ line_ops (tl_words l).

(** typeset/layout.py 70-74: [_render_left] *)
Definition render_left (ls : list tline) (lead : num) : list op :=
  OTL lead :: flat_map (fun l => OTstar :: tline_ops l) ls.
(** typeset/layout.py 77-83, 86-92: [_render_centered], [_render_right] *)
Fixpoint render_centered (ls : list tline) (lead prev : num) : list op :=
  match ls with
  | [] => []
  | l :: r => OTD (ndiv (nsub prev (tl_width l)) (nZ 2)) (nneg lead) :: tline_ops l
              ++ render_centered r lead (tl_width l)
  end.
Fixpoint render_right (ls : list tline) (lead prev : num) : list op :=
  match ls with
  | [] => []
  | l :: r => OTD (nsub prev (tl_width l)) (nneg lead) :: tline_ops l
              ++ render_right r lead (tl_width l)
  end.
(** typeset/layout.py 95-102: the function picked for each alignment *)
Definition render_lines (a : align) (ls : list tline) (lead width : num) : list op :=
  match a with
  | ALeft | AJustify => render_left ls lead
  | ACenter => render_centered ls lead width
  | ARight => render_right ls lead width
  end.
(** typeset/layout.py 43-54: [render_text] *)
Definition render_text (x y : num) (st : option state) (width : num) (ls : list tline)
           (lead : num) (a : align) : list op :=
  OBT :: OTd x y :: match st with Some s => state_ops s | None => [] end
  ++ render_lines a ls lead width ++ [OET].

(** ** Bytes *)

(** TJ array items *)
Inductive tj := TStr (b : bytes) | TAdj (a : num).
(** words.py 607-628: [_encode_kerning] on the encoded text.  [loop] is the [for]
    with the final string. *)
Definition slice (b : bytes) (i j : nat) : bytes := firstn (j - i) (skipn i b).
Fixpoint kern_loop (b : bytes) (kern : list (nat * num)) (width prev : nat) : list tj :=
  match kern with
  | [] => [TStr (skipn prev b)]
  | (i, sp) :: r => TStr (slice b prev (i * width)) :: TAdj (nneg sp)
                    :: kern_loop b r width (i * width)
  end.
Definition encode_kerning (b : bytes) (kern : list (nat * num)) (width : nat) : list tj :=
  match kern with
  | [] => [TStr b]
  | (O, sp) :: r => TAdj (nneg sp) :: kern_loop b r width 0
  | _ => kern_loop b kern width 0
  end.

(** the code tables of the embedded fonts *)
Definition cstate : Type := list (font * cidmap).
Fixpoint cs_get (cs : cstate) (f : font) : cidmap :=
  match cs with
  | [] => cids_empty
  | (g, m) :: r => if font_eqb f g then m else cs_get r f
  end.
Fixpoint cs_set (cs : cstate) (f : font) (m : cidmap) : cstate :=
  match cs with
  | [] => [(f, m)]
  | (g, x) :: r => if font_eqb f g then (g, m) :: r else (g, x) :: cs_set r f m
  end.
(** [font.encode(s)]: fonts/common.py 167-170, embed.py 137-144 *)
Definition font_encode (f : font) (s : str) (cs : cstate) : bytes * cstate :=
  if is_builtin f then (encode_builtin s, cs)
  else let (b, m) := encode_subset (cs_get cs f) s in (b, cs_set cs f m).

(** words.py 205-206: [Slug.to_atoms]; 586-589: [TrailingSpace.into_atoms] *)
Definition item_tj (i : titem) (cs : cstate) : list tj * cstate :=
  match i with
  | ISlug s => let (b, cs') := font_encode (st_font (sl_state s)) (sl_txt s) cs in
               (encode_kerning b (sl_kern s) (encoding_width (st_font (sl_state s))), cs')
  | ISpace t st => let (b, cs') := font_encode (st_font st) [32%N] cs in
                   ((if ntruthy (ts_kern t) then [TAdj (nneg (ts_kern t))] else []) ++ [TStr b], cs')
  end.
Fixpoint items_tj (l : list titem) (cs : cstate) : list tj * cstate :=
  match l with
  | [] => ([], cs)
  | i :: r => let (a, cs1) := item_tj i cs in let (b, cs2) := items_tj r cs1 in (a ++ b, cs2)
  end.
Definition tj_atom (t : tj) : atom :=
  match t with TStr b => ALit b | TAdj a => AReal (nto_Q a) end.
(** atoms.py 114-123: [Array.write] of literal strings and reals *)
Definition tj_bytes (l : list tj) : res bytes :=
  do b <- write_atom (fun b => b) (AArr (map tj_atom l)); Ok (b ++ bs " TJ" ++ [10%N]).

Definition sp : bytes := [32%N].
Definition nums (l : list num) : bytes := flat_map (fun x => fmt_num x ++ sp) l.
Definition line_end (s : bytes) : bytes := s ++ [10%N].
(** Operators end with a newline or with one space (both white space in PDF), as in
    the code: the text commands end [rg] with a newline (state.py 86), the drawings end
    path construction and colour operators with a space (draw.py 68, 113, 205-211,
    229-259, 302-305, rule.py 67). *)
Definition op_bytes (r : list font) (o : op) (cs : cstate) : res (bytes * cstate) :=
  match o with
  | OBT => Ok (line_end (bs "BT"), cs)
  | OET => Ok (line_end (bs "ET"), cs)
  | OTd x y => Ok (nums [x; y] ++ line_end (bs "Td"), cs)
  | OTD x y => Ok (nums [x; y] ++ line_end (bs "TD"), cs)
  | OTstar => Ok (line_end (bs "T*"), cs)
  | OTL l => Ok (nums [l] ++ line_end (bs "TL"), cs)
  | OTf f z => Ok (bs "/" ++ font_id r f ++ sp ++ nums [z] ++ line_end (bs "Tf"), cs)
  | Org c => Ok (nums [red c; green c; blue c] ++ line_end (bs "rg"), cs)
  | OrgD c => Ok (nums [red c; green c; blue c] ++ bs "rg ", cs)
  | ORG c => Ok (nums [red c; green c; blue c] ++ bs "RG ", cs)
  | OTJ l => let (t, cs') := items_tj l cs in do b <- tj_bytes t; Ok (b, cs')
  | Om x y => Ok (nums [x; y] ++ bs "m ", cs)
  | Ol x y => Ok (nums [x; y] ++ bs "l ", cs)
  | Oc x1 y1 x2 y2 x3 y3 => Ok (nums [x1; y1; x2; y2; x3; y3] ++ bs "c ", cs)
  | Ore x y w h => Ok (nums [x; y; w; h] ++ bs "re ", cs)
  | Ob => Ok (line_end (bs "b"), cs)
  | OB => Ok (line_end (bs "B"), cs)
  | Of => Ok (line_end (bs "f"), cs)
  | Os => Ok (line_end (bs "s"), cs)
  | OS => Ok (line_end (bs "S"), cs)
  | On => Ok (line_end (bs "n"), cs)
  end.
Fixpoint ops_bytes (r : list font) (l : list op) (cs : cstate) : res (list bytes * cstate) :=
  match l with
  | [] => Ok ([], cs)
  | o :: l' => do x <- op_bytes r o cs;
               do y <- ops_bytes r l' (snd x);
               Ok (fst x :: fst y, snd y)
  end.
End Render.
