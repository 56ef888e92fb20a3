(** * Words: fragments, words and their operations.
    /repo/src/pdfje/typeset/words.py *)
From Coq Require Import QArith.
From Verif Require Import Base Gfmt Num Fonts State.
Open Scope nat_scope.

Section Words.
Context {NUM : Num} {ENV : Env NUM}.

(** words.py 102-111: [Slug].  [txt] is non-empty by construction. *)
Record slug := mkSlug {
  sl_txt : str; sl_kern : list (nat * num); sl_width : num; sl_state : state }.
(** 116-117: [last]; [txt[-1]] (IndexError on empty text, which is never built:
    see [slugs_nonempty] in the proofs; the model returns 0) *)
Definition str_last (s : str) : char := List.last s 0%N.
Definition slug_last (s : slug) : char := str_last (sl_txt s).
(** [self.width + (a / 1000) * size] *)
Definition hyphen_char : char := 45%N.
(** 119-131: [with_hyphen] *)
Definition slug_with_hyphen (s : slug) : slug :=
  let f := st_font (sl_state s) in
  let k := charkern f (slug_last s) hyphen_char in
  mkSlug (sl_txt s ++ [hyphen_char])
         (if ntruthy k then sl_kern s ++ [(List.length (sl_txt s), k)] else sl_kern s)
         (nadd (sl_width s)
               (nmul (ndiv (nadd (charwidth f hyphen_char) k) n1000) (st_size (sl_state s))))
         (sl_state s).
(** 133-134: [has_init_kern] *)
Definition slug_has_init_kern (s : slug) : bool :=
  match sl_kern s with (O, _) :: _ => true | _ => false end.
(** 137-147: [Slug.new] *)
Definition slug_new (t : str) (st : state) (prev : option char) : slug :=
  let f := st_font st in
  let k := font_kern f t prev in
  mkSlug t k (nmul (nadd (font_width f t) (ndiv (nsum (map snd k)) n1000)) (st_size st)) st.
(** 149-156: [without_init_kern] *)
Definition slug_without_init_kern (s : slug) : slug :=
  match sl_kern s with
  | (O, k) :: r =>
      mkSlug (sl_txt s) r
             (nsub (sl_width s) (ndiv (nmul k (st_size (sl_state s))) n1000)) (sl_state s)
  | _ => s
  end.
(** 158-177: [indent].  The assertion raises when there is initial kerning; the
    division raises for size 0. *)
Definition slug_indent (s : slug) (amount : num) : res slug :=
  if ntruthy amount then
    if slug_has_init_kern s then Err EAssertion
    else do q <- pdiv amount (st_size (sl_state s));
         Ok (mkSlug (sl_txt s) ((0, nmul q n1000) :: sl_kern s)
                    (nadd (sl_width s) amount) (sl_state s))
  else Ok s.

(** A box is a [Slug] or a [MixedSlug] (words.py 219-303).  [MixedSlug.segments]
    is non-empty by construction; operations on an empty one (never built) return
    a default. *)
Inductive box := BSlug (s : slug) | BMixed (segs : list (slug * command)) (st : state).
Definition box_state (b : box) : state :=
  match b with BSlug s => sl_state s | BMixed _ st => st end.
(** 113-114, 245-246: [pre_state] *)
Definition box_pre_state (b : box) : state :=
  match b with
  | BSlug s => sl_state s
  | BMixed ((s, _) :: _) _ => sl_state s
  | BMixed [] st => st
  end.
(** 292-294: [width] *)
Definition box_width (b : box) : num :=
  match b with BSlug s => sl_width s | BMixed segs _ => nsum (map (fun p => sl_width (fst p)) segs) end.
(** 248-249: [last] *)
Definition segs_last (segs : list (slug * command)) : char :=
  match rev segs with (s, _) :: _ => slug_last s | [] => 0%N end.
Definition box_last (b : box) : char :=
  match b with BSlug s => slug_last s | BMixed segs _ => segs_last segs end.
(** 260-270: [with_hyphen] *)
Definition box_with_hyphen (b : box) : box :=
  match b with
  | BSlug s => BSlug (slug_with_hyphen s)
  | BMixed segs st => BMixed (segs ++ [(slug_new [hyphen_char] st (Some (segs_last segs)), NoOp)]) st
  end.
(** 279-280: [has_init_kern] *)
Definition box_has_init_kern (b : box) : bool :=
  match b with
  | BSlug s => slug_has_init_kern s
  | BMixed ((s, _) :: _) _ => slug_has_init_kern s
  | BMixed [] _ => false
  end.
(** 272-277: [without_init_kern] *)
Definition box_without_init_kern (b : box) : box :=
  match b with
  | BSlug s => BSlug (slug_without_init_kern s)
  | BMixed ((s, c) :: r) st => BMixed ((slug_without_init_kern s, c) :: r) st
  | BMixed [] st => b
  end.
(** 282-290: [indent] *)
Definition box_indent (b : box) (amount : num) : res box :=
  match b with
  | BSlug s => rmap BSlug (slug_indent s amount)
  | BMixed segs st =>
      if ntruthy amount then
        match segs with
        | (s, c) :: r => rmap (fun s' => BMixed ((s', c) :: r) st) (slug_indent s amount)
        | [] => Ok b
        end
      else Ok b
  end.

(** 306-321: [into_syllables].  [runs s] are the maximal runs of word characters
    ([\w+] found by [finditer]) each with the text before it, and the rest. *)
Fixpoint take_while (p : char -> bool) (s : str) : str * str :=
  match s with
  | [] => ([], [])
  | c :: r => if p c then let (a, b) := take_while p r in (c :: a, b) else ([], s)
  end.
Fixpoint runs (fuel : nat) (s : str) : list (str * str) * str :=
  match fuel with
  | O => ([], s)
  | S fuel =>
      let (gap, r) := take_while (fun c => negb (is_wordchar c)) s in
      let (w, r') := take_while is_wordchar r in
      match w with
      | [] => ([], s)
      | _ => let (l, rest) := runs fuel r' in ((gap, w) :: l, rest)
      end
  end.
(** [next(syllables)] on an empty result raises StopIteration inside the
    generator, i.e. RuntimeError. *)
Fixpoint syllables_of (hy : str -> list str) (leftover : str) (l : list (str * str)) (rest : str)
  : res (list str) :=
  match l with
  | [] => match leftover ++ rest with [] => Ok [] | t => Ok [t] end
  | (gap, w) :: l' =>
      match hy w with
      | [] => Err ERuntime
      | p :: ps =>
          let buf := ((leftover ++ gap) ++ p) :: ps in
          do out <- syllables_of hy (List.last buf []) l' rest;
          Ok (removelast buf ++ out)
      end
  end.
Definition into_syllables (s : str) (hy : str -> list str) : res (list str) :=
  let (l, rest) := runs (S (List.length s)) s in syllables_of hy [] l rest.

(** 551-555: [TrailingSpace] *)
Record tspace := mkSpace { ts_width : num; ts_kern : num; ts_size : num }.
(** 573-577: [width] *)
Definition tspace_width (t : tspace) : num :=
  nadd (ts_width t) (ndiv (nmul (ts_kern t) (ts_size t)) n1000).
(** 579-584: [stretch] *)
Definition tspace_stretch (t : tspace) (amount : num) (st : state) : res tspace :=
  do q <- pdiv amount (st_size st);
  Ok (mkSpace (ts_width t) (nadd (ts_kern t) (nmul q n1000)) (ts_size t)).
Definition tspace_new (st : state) (prev : option char) : tspace :=
  let f := st_font st in
  mkSpace (nmul (ndiv (spacewidth f) n1000) (st_size st))
          (match prev with Some p => charkern f p 32%N | None => n0 end) (st_size st).
(** 557-570: [TrailingSpace.parse] *)
Definition tspace_parse (s : str) (st : state) (prev : option char) : str * option tspace :=
  match s with
  | [] => (s, None)
  | _ => if (str_last s =? 32)%N then
           let s' := removelast s in
           let prev' := match s' with [] => prev | _ => Some (str_last s') end in
           (s', Some (tspace_new st prev'))
         else (s, None)
  end.

(** 324-330: [Word] *)
Record word := mkWord { w_boxes : list box; w_tail : option tspace; w_state : state }.
(** 349-356: [Word.new]; [part[-1]] raises IndexError for an empty part *)
Fixpoint slugs_new (parts : list str) (st : state) (prev : option char) : res (list box) :=
  match parts with
  | [] => Ok []
  | [] :: _ => Err EIndex
  | p :: r => do bs <- slugs_new r st (Some (str_last p));
              Ok (BSlug (slug_new p st prev) :: bs)
  end.
Definition word_new (s : str) (st : state) (prev : option char) : res word :=
  let (s', tail) := tspace_parse s st prev in
  do parts <- into_syllables s' (hyphenator (st_hyphens st));
  do boxes <- slugs_new parts st prev;
  Ok (mkWord boxes tail st).
(** 332-337: [pre_state] *)
Definition word_pre_state (w : word) : state :=
  match w_boxes w with [] => w_state w | b :: _ => box_pre_state b end.
(** 342-347: [has_init_kern] *)
Definition word_has_init_kern (w : word) : bool :=
  match w_boxes w with
  | b :: _ => box_has_init_kern b
  | [] => match w_tail w with Some t => ntruthy (ts_kern t) | None => false end
  end.
(** 395-413: [without_init_kern] *)
Definition word_without_init_kern (w : word) : word :=
  match w_boxes w with
  | b :: r => if box_has_init_kern b
              then mkWord (box_without_init_kern b :: r) (w_tail w) (w_state w) else w
  | [] => match w_tail w with
          | Some t => if ntruthy (ts_kern t)
                      then mkWord [] (Some (mkSpace (ts_width t) n0 (ts_size t))) (w_state w) else w
          | None => w
          end
  end.
(** 428-429: [pruned_width], 431-433: [width], 455-456: [prunable_space] *)
Definition word_pruned_width (w : word) : num := nsum (map box_width (w_boxes w)).
Definition word_width (w : word) : num :=
  nadd (word_pruned_width w) (match w_tail w with Some t => tspace_width t | None => n0 end).
Definition word_prunable (w : word) : num :=
  match w_tail w with Some t => tspace_width t | None => n0 end.
(** 458-459: [pruned] *)
Definition word_pruned (w : word) : word :=
  match w_tail w with Some _ => mkWord (w_boxes w) None (w_state w) | None => w end.
(** 358-377: [hyphenate]: the loop over [pairwise(it)] *)
Fixpoint hyph_loop (b : box) (rest : list box) (space : num) (fitting : list box)
  : res (list box * state * box * list box) :=
  match rest with
  | [] => Err ERuntime
  | nb :: r =>
      let space' := nsub space (box_width b) in
      if nltb space' (box_width (box_with_hyphen nb))
      then Ok (fitting ++ [box_with_hyphen b], box_state b, nb, r)
      else hyph_loop nb r space' (fitting ++ [b])
  end.
Definition word_hyphenate (w : word) (space : num) : res (option word * word) :=
  match w_boxes w with
  | [] => Ok (None, word_without_init_kern w)
  | b :: rest =>
      if nltb space (box_width (box_with_hyphen b)) then Ok (None, word_without_init_kern w)
      else do r <- hyph_loop b rest space [];
           let '(fitting, st, nb, r) := r in
           Ok (Some (mkWord fitting None st),
               mkWord (box_without_init_kern nb :: r) (w_tail w) (w_state w))
  end.
(** 379-393: [minimal_box] *)
Definition word_minimal (w : word) : word * option word :=
  match w_boxes w with
  | b :: b2 :: r =>
      (mkWord [box_with_hyphen b] None (box_state b),
       Some (mkWord (box_without_init_kern b2 :: r) (w_tail w) (w_state w)))
  | _ => (w, None)
  end.
(** 415-426: [indent] *)
Definition word_indent (w : word) (amount : num) : res word :=
  if ntruthy amount then
    match w_boxes w with
    | b :: r => rmap (fun b' => mkWord (b' :: r) (w_tail w) (w_state w)) (box_indent b amount)
    | [] => match w_tail w with
            | Some t => rmap (fun t' => mkWord [] (Some t') (w_state w))
                             (tspace_stretch t amount (w_state w))
            | None => Err EAssertion
            end
    end
  else Ok w.
(** 435-440: [extend_tail] *)
Definition word_extend_tail (w : word) (amount : num) : res word :=
  match w_tail w with
  | Some t => if ntruthy amount
              then rmap (fun t' => mkWord (w_boxes w) (Some t') (w_state w))
                        (tspace_stretch t amount (w_state w))
              else Ok w
  | None => Ok w
  end.
(** 442-453: [stretch_tail]; note the test [ratio != 1] *)
Definition word_stretch_tail (w : word) (ratio : num) : res word :=
  match w_tail w with
  | Some t => if neqb ratio n1 then Ok w
              else rmap (fun t' => mkWord (w_boxes w) (Some t') (w_state w))
                        (tspace_stretch t (nmul ratio (ts_width t)) (w_state w))
  | None => Ok w
  end.

(** [WordLike]: 35-99; [WithCmd]: 473-548.  In Python [WithCmd] may wrap any
    [WordLike]. *)
Inductive wordlike := WBox (b : box) | WWord (w : word) | WCmd (w : wordlike) (c : command).
(** 98-99: [with_cmd]; [cmd is NO_OP] *)
Definition with_cmd (w : wordlike) (c : command) : wordlike :=
  match c with NoOp => w | _ => WCmd w c end.
(** [state] *)
Fixpoint wl_state (w : wordlike) : state :=
  match w with WBox b => box_state b | WWord w => w_state w | WCmd w c => apply c (wl_state w) end.
Fixpoint wl_tail (w : wordlike) : option tspace :=
  match w with WBox _ => None | WWord w => w_tail w | WCmd w _ => wl_tail w end.
Fixpoint wl_boxes (w : wordlike) : list box :=
  match w with WBox b => [b] | WWord w => w_boxes w | WCmd w _ => wl_boxes w end.
Fixpoint wl_width (w : wordlike) : num :=
  match w with WBox b => box_width b | WWord w => word_width w | WCmd w _ => wl_width w end.
Fixpoint wl_pruned_width (w : wordlike) : num :=
  match w with WBox b => box_width b | WWord w => word_pruned_width w | WCmd w _ => wl_pruned_width w end.
Fixpoint wl_prunable (w : wordlike) : num :=
  match w with WBox b => n0 | WWord w => word_prunable w | WCmd w _ => wl_prunable w end.
Fixpoint wl_pruned (w : wordlike) : wordlike :=
  match w with WBox b => w | WWord x => WWord (word_pruned x) | WCmd w c => WCmd (wl_pruned w) c end.
Fixpoint wl_without_init_kern (w : wordlike) : wordlike :=
  match w with
  | WBox b => WBox (box_without_init_kern b)
  | WWord x => WWord (word_without_init_kern x)
  | WCmd w c => WCmd (wl_without_init_kern w) c
  end.
(** [hyphenate] of a [Slug], [MixedSlug]: 195-196, 257-258; [WithCmd]: 526-528 *)
Fixpoint wl_hyphenate (w : wordlike) (space : num) : res (option wordlike * wordlike) :=
  match w with
  | WBox b => Ok (None, w)
  | WWord x => rmap (fun p => (option_map WWord (fst p), WWord (snd p))) (word_hyphenate x space)
  | WCmd w c => rmap (fun p => (fst p, with_cmd (snd p) c)) (wl_hyphenate w space)
  end.
(** [minimal_box]: 199-200, 238-239, 530-534 *)
Fixpoint wl_minimal (w : wordlike) : wordlike * option wordlike :=
  match w with
  | WBox b => (w, None)
  | WWord x => let (a, b) := word_minimal x in (WWord a, option_map WWord b)
  | WCmd w c => let (a, b) := wl_minimal w in
                match b with
                | None => (with_cmd a c, None)
                | Some b => (a, Some (with_cmd b c))
                end
  end.
Fixpoint wl_indent (w : wordlike) (amount : num) : res wordlike :=
  match w with
  | WBox b => rmap WBox (box_indent b amount)
  | WWord x => rmap WWord (word_indent x amount)
  | WCmd w c => if ntruthy amount then rmap (fun w' => WCmd w' c) (wl_indent w amount) else Ok (WCmd w c)
  end.
Fixpoint wl_extend_tail (w : wordlike) (amount : num) : res wordlike :=
  match w with
  | WBox b => Ok w
  | WWord x => rmap WWord (word_extend_tail x amount)
  | WCmd w' c => match wl_tail w' with
                 | Some _ => if ntruthy amount then rmap (fun w => WCmd w c) (wl_extend_tail w' amount) else Ok w
                 | None => Ok w
                 end
  end.
Fixpoint wl_stretch_tail (w : wordlike) (ratio : num) : res wordlike :=
  match w with
  | WBox b => Ok w
  | WWord x => rmap WWord (word_stretch_tail x ratio)
  | WCmd w' c => match wl_tail w' with
                 | Some _ => rmap (fun w => WCmd w c) (wl_stretch_tail w' ratio)
                 | None => Ok w
                 end
  end.
(** 596-603: [indent_first] *)
Definition indent_first (ws : list wordlike) (amount : num) : res (list wordlike) :=
  match ws with
  | [] => Ok []
  | w :: r => do w' <- wl_indent w amount; Ok (w' :: r)
  end.
End Words.
