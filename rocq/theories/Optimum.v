(** * Optimum: optimal typesetting of paragraphs.  /repo/src/pdfje/typeset/optimum.py *)
From Coq Require Import QArith.
From Verif Require Import Base Num Fonts State Words Firstfit KnuthPlass.
Open Scope nat_scope.

Section Optimum.
Context {NUM : Num} {ENV : Env NUM}.

(** 19-20 *)
Definition STRETCH_RATIO : num := nQ (1 # 2).
Definition SHRINK_RATIO : num := nQ (1 # 3).

(** optimum.py 78-82: [Fragment] *)
Record fragment := mkFrag { fr_txt : wordlike; fr_break : option wordlike; fr_cmd : command }.

(** 106-110: [isinstance(word, WithCmd)]: one level of wrapping is removed *)
Definition unwrap (w : wordlike) : wordlike * command :=
  match w with WCmd w' c => (w', c) | _ => (w, NoOp) end.
(** 111-130: the loop over [word.boxes[:-1]] *)
Fixpoint chunk_boxes (bs : list box) (width stretch shrink : num)
  : list (fragment * kbox) * num :=
  match bs with
  | [] => ([], width)
  | b :: r =>
      let wh := box_with_hyphen b in
      let width_new := nadd width (box_width b) in
      let (l, w) := chunk_boxes r width_new stretch shrink in
      ((mkFrag (WBox b) (Some (WBox wh)) NoOp,
        mkKBox width_new stretch shrink width_new (nadd width (box_width wh)) true false) :: l, w)
  end.
Definition em_dash : char := 8212%N.
(** 105-171: one word; returns its fragments and the new width, stretch, shrink.
    [word.boxes[-1]] raises IndexError on a word with neither boxes nor space. *)
Definition word_boxes (just : bool) (w : wordlike) (width stretch shrink : num)
  : res (list (fragment * kbox) * num * num * num) :=
  let (x, cmd) := unwrap w in
  let (chunks, width) := chunk_boxes (removelast (wl_boxes x)) width stretch shrink in
  match wl_tail x with
  | Some t =>
      let syl := match rev (wl_boxes x) with [] => [] | b :: _ => [b] end in
      let width := nadd width (match syl with b :: _ => box_width b | [] => n0 end) in
      let width_new := nadd width (tspace_width t) in
      Ok (chunks
          ++ [(mkFrag (WWord (mkWord syl (Some t) (wl_state x)))
                      (match syl with b :: _ => Some (WBox b) | [] => None end) cmd,
               mkKBox width stretch shrink width_new width false false)],
          width_new,
          (if just then nadd stretch (nmul (ts_width t) STRETCH_RATIO) else stretch),
          (if just then nadd shrink (nmul (ts_width t) SHRINK_RATIO) else shrink))
  | None =>
      match rev (wl_boxes x) with
      | [] => Err EIndex
      | e :: _ =>
          let width := nadd width (box_width e) in
          let hy := ((box_last e =? 45) || (box_last e =? em_dash))%N in
          Ok (chunks ++ [(mkFrag (WBox e) (Some (WBox e)) cmd,
                          mkKBox width stretch shrink width width hy false)],
              width, stretch, shrink)
      end
  end.
Fixpoint words_boxes (just : bool) (ws : list wordlike) (width stretch shrink : num)
  : res (list (fragment * kbox)) :=
  match ws with
  | [] => Ok []
  | w :: r =>
      do x <- word_boxes just w width stretch shrink;
      let '(l, width, stretch, shrink) := x in
      do l' <- words_boxes just r width stretch shrink;
      Ok (l ++ l')
  end.
(** 88-103: the initial values: ragged text has a constant stretch of three spaces *)
Definition first_stretch (just : bool) (ws : list wordlike) : num :=
  match just, ws with
  | false, w :: _ => nmul (nmul (st_size (wl_state w))
                                (ndiv (spacewidth (st_font (wl_state w))) n1000)) (nZ 3)
  | _, _ => n0
  end.
(** 85-180: [_to_boxes], [into_boxes] *)
Definition into_boxes (ws : list wordlike) (just : bool) : res (list fragment * list kbox) :=
  rmap (fun l => (map fst l, map snd l)) (words_boxes just ws n0 (first_stretch just ws) n0).

(** 183-186: [Line] *)
Record oline := mkOLine { ol_words : list wordlike; ol_width : num }.
(** 211 *)
Definition oline_empty : oline := mkOLine [] n0.
(** 194-206: [stretch] *)
Definition oline_stretch (l : oline) (adjust : num) : res oline :=
  do ws <- mapM (fun w => wl_stretch_tail w
                   (nmul adjust (if nltb n0 adjust then STRETCH_RATIO else SHRINK_RATIO))) (ol_words l);
  Ok (mkOLine ws (ol_width l)).
(** 226-236: one line of [_into_lines_ragged] *)
Definition line_words (fs : list fragment) : res (list wordlike) :=
  match rev fs with
  | [] => Err EValue
  | last :: ri =>
      let body := map (fun f => with_cmd (fr_txt f) (fr_cmd f)) (rev ri) in
      match fr_break last with
      | Some tail => Ok (body ++ [with_cmd tail (fr_cmd last)])
      | None => match rev body with
                | [] => Ok []
                | x :: r => Ok (rev r ++ [with_cmd x (fr_cmd last)])
                end
      end
  end.
(** 221-238 *)
Fixpoint lines_ragged (prev : nat) (brs : list break) (fs : list fragment) : res (list oline) :=
  match brs with
  | [] => Ok []
  | br :: r =>
      do ws <- line_words (firstn (br_pos br - prev) (skipn prev fs));
      do ls <- lines_ragged (br_pos br) r fs;
      Ok (mkOLine ws (br_width br) :: ls)
  end.
(** 214-218: [zip(breaks, lines)] *)
Fixpoint stretch_all (brs : list break) (ls : list oline) : res (list oline) :=
  match brs, ls with
  | br :: brs', l :: ls' => do l' <- oline_stretch l (br_adjust br);
                            do r <- stretch_all brs' ls'; Ok (l' :: r)
  | _, _ => Ok []
  end.
Definition into_lines (ragged : bool) (brs : list break) (fs : list fragment) : res (list oline) :=
  do ls <- lines_ragged 0 brs fs;
  if ragged then Ok ls else stretch_all brs ls.

(** 241-267: [find_breaks].  The tolerances tried: [tolerance * scale] *)
Definition tolerances (tolerance : num) : list tol :=
  map (fun s => TFin (nmul tolerance (nZ s))) [1; 2; 3; 5; 8]%Z
  ++ [if nltb n0 tolerance then TInf else if nltb tolerance n0 then TNegInf else TNan].
Fixpoint try_fit (ts : list tol) (width : nat -> num) (P : params) (ragged : bool) (bs : list kbox)
  : res (list break) :=
  match ts with
  | [] => Err ERuntime
  | t :: r => match optimum_fit width t P ragged bs with
              | Err ENoFeasible => try_fit r width P ragged bs
              | x => x
              end
  end.
Definition find_breaks (bs : list kbox) (width : nat -> num) (ragged : bool) (tolerance : num) (P : params)
  : res (list break) :=
  match bs with
  | [] => Err EAssertion
  | _ => try_fit (tolerances tolerance) width P ragged bs
  end.

(** 37-75: [ColumnQueue].  The columns read so far and their cumulative line
    counts are replaced by the infinite sequences they are prefixes of (reading
    is deterministic, and later counts are computed from the last one, so
    shortening the counts read is shortening all later ones). *)
Record queue := mkQueue { q_cols : nat -> num * num; q_counts : nat -> Z }.
Fixpoint count_to (cols : nat -> num * num) (lead : num) (allow_empty : bool) (j : nat) : Z :=
  match j with
  | O => max_line_count (snd (cols O)) lead allow_empty
  | S j' => count_to cols lead allow_empty j' + max_line_count (snd (cols j)) lead false
  end%Z.
(** 45-51, 53-59; [lead] is not 0 *)
Definition queue_new (cols : nat -> num * num) (lead : num) (allow_empty : bool) : queue :=
  mkQueue cols (count_to cols lead allow_empty).
(** 61-67: [line_length]: the width of the first column whose count exceeds [i].
    [bisect] gives that column because counts ascend; they do when no column but
    the first has negative height, which is the scope of this model.  The search
    bound is enough for ascending counts. *)
Fixpoint find_col (counts : nat -> Z) (i : Z) (fuel j : nat) : nat :=
  match fuel with
  | O => j
  | S f => if (i <? counts j)%Z then j else find_col counts i f (S j)
  end.
Definition line_col (q : queue) (i : nat) : nat :=
  find_col (q_counts q) (Z.of_nat i) (Z.to_nat (Z.of_nat i + 1 - q_counts q O)) O.
Definition line_length (q : queue) (i : nat) : num := fst (q_cols q (line_col q i)).
(** 69-72 *)
Definition remove_first_column (q : queue) : queue :=
  mkQueue (fun j => q_cols q (S j)) (fun j => q_counts q (S j) - q_counts q O)%Z.
(** 74-75 *)
Definition shorten_column (q : queue) (i : nat) : queue :=
  mkQueue (q_cols q) (fun j => if i <=? j then (q_counts q j - 1)%Z else q_counts q j).

(** Python slices [l[a:b]] with negative indices *)
Definition pyslice {A} (l : list A) (a b : Z) : list A :=
  let n := Z.of_nat (List.length l) in
  let norm x := Z.max 0 (Z.min n (if x <? 0 then x + n else x)%Z) in
  firstn (Z.to_nat (norm b - norm a)) (skipn (Z.to_nat (norm a)) l).
(** 270-279: [_lines_per_column] *)
Fixpoint lines_per_column (fuel : nat) (ls : list oline) (counts : nat -> Z) (prev : Z) (j : nat)
  : res (list (list oline)) :=
  match fuel with
  | O => Err EFuel
  | S f => match pyslice ls prev (counts j) with
           | [] => Ok []
           | x => rmap (cons x) (lines_per_column f ls counts (counts j) (S j))
           end
  end.
(** at most so many groups if counts ascend *)
Definition per_column (ls : list oline) (q : queue) : res (list (list oline)) :=
  lines_per_column (S (S (2 * List.length ls))) ls (q_counts q) 0 0.

Section Shape.
Variables (frags : list fragment) (boxes : list kbox) (ragged : bool) (tolerance : num) (P : params).
Definition lay (q : queue) : res (list oline) :=
  do brs <- find_breaks boxes (line_length q) ragged tolerance P;
  into_lines ragged brs frags.
(** 332-361: the orphan repair loop ([fuel] bounds its iterations).
    [grouped_lines[-1]] raises IndexError when there are no lines. *)
Fixpoint repair (fuel : nat) (groups : list (list oline)) (q : queue) : res (list (list oline)) :=
  match fuel with
  | O => Err EFuel
  | S f =>
      match rev groups with
      | [] => Err EIndex
      | [_] => Ok groups
      | last :: prev :: _ =>
          let m := List.length groups in
          if (List.length last =? 1) && (1 <? q_counts q (m - 1) - q_counts q (m - 2))%Z
             && (2 <? List.length prev) then
            let q' := shorten_column q (m - 2) in
            do ls <- lay q';
            do groups' <- per_column ls q';
            match rev groups' with
            | last' :: _ => if (m =? List.length groups') && (List.length last' =? 1) then Ok groups
                            else repair f groups' q'
            | [] => repair f groups' q'
            end
          else Ok groups
      end
  end.
End Shape.
(** 282-364: [shape] *)
Definition opt_shape (fuel : nat) (ws : list wordlike) (cols : nat -> num * num) (allow_empty : bool)
           (lead : num) (avoid_orphans ragged : bool) (tolerance : num) (P : params)
  : res (list (list oline)) :=
  do fb <- into_boxes ws (negb ragged);
  let (frags, boxes) := fb in
  if neqb lead n0 then Err EZeroDiv else
  let q := queue_new cols lead allow_empty in
  let (pre, q) := if (q_counts q O =? 0)%Z
                  then ([[]], queue_new (fun i => cols (S i)) lead false) else ([], q) in
  match boxes with
  | [] => Ok (pre ++ [[oline_empty]])
  | _ =>
      do ls <- lay frags boxes ragged tolerance P q;
      do x <- (if avoid_orphans && allow_empty && (q_counts q O =? 1)%Z
                  && (1 <? List.length ls) && (2 <=? q_counts q (S O))%Z
               then let q' := remove_first_column q in
                    do ls' <- lay frags boxes ragged tolerance P q'; Ok (pre ++ [[]], q', ls')
               else Ok (pre, q, ls));
      let '(pre, q, ls) := x in
      do groups <- per_column ls q;
      do groups <- (if avoid_orphans then repair frags boxes ragged tolerance P fuel groups q else Ok groups);
      Ok (pre ++ groups)
  end.
End Optimum.
