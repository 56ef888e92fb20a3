(** * Firstfit: first-fit typesetting.  /repo/src/pdfje/typeset/firstfit.py *)
From Verif Require Import Base Num Fonts State Words.
Open Scope nat_scope.

Section Firstfit.
Context {NUM : Num} {ENV : Env NUM}.

(** firstfit.py 169-173: [Line] *)
Record line := mkLine { l_words : list wordlike; l_width : num; l_space : num }.

(** 130-138: the [for] loop of [take_line]: the words that fit, the space left, and
    where it broke off (None: the loop ran to its end) *)
Fixpoint fit_words (ws : list wordlike) (space : num) (content : list wordlike)
  : list wordlike * num * option (wordlike * list wordlike) :=
  match ws with
  | [] => (content, space, None)
  | w :: r => if nltb space (wl_pruned_width w) then (content, space, Some (w, r))
              else fit_words r (nsub space (wl_width w)) (content ++ [w])
  end.
(** 124-166: [take_line].  An iterator is the list of its items; [prepend] is cons. *)
Definition take_line (ws : list wordlike) (width : num) : res (option (list wordlike) * line) :=
  let '(content, space, stop) := fit_words ws width [] in
  match stop with
  | None => Ok (None, mkLine content (nsub width space) n0)
  | Some (w, r) =>
      do h <- wl_hyphenate w space;
      let (last, dangling) := h in
      match last with
      | Some lw =>
          let space := nsub space (wl_width lw) in
          Ok (Some (dangling :: r), mkLine (content ++ [lw]) (nsub width space) space)
      | None =>
          match rev content with
          | x :: _ =>
              if ntruthy (wl_prunable x) then
                let space := nadd space (wl_prunable x) in
                Ok (Some (dangling :: r),
                    mkLine (removelast content ++ [wl_pruned x]) (nsub width space) space)
              else Ok (Some (dangling :: r), mkLine content (nsub width space) space)
          | [] =>
              let (x, leftover) := wl_minimal dangling in
              let space := nsub space (wl_width x) in
              match leftover with
              | Some y => Ok (Some (y :: r), mkLine [x] (nsub width space) space)
              | None =>
                  match r with
                  | [] => Ok (None, mkLine [x] (wl_width x) n0)
                  | _ => Ok (Some r, mkLine [x] (nsub width space) space)
                  end
              end
          end
      end
  end.

(** 100-103: [_FilledBox] *)
Record filled := mkFilled {
  b_rest : option (list wordlike); b_lines : list line; b_undo : option (list wordlike) }.
(** 115-121: the loop of [take_box] for at most [n] lines *)
Fixpoint take_lines (n : nat) (queue prev : option (list wordlike)) (width : num) (lines : list line)
  : res filled :=
  match n, queue with
  | S n', Some ws => do x <- take_line ws width;
                     take_lines n' (fst x) (Some ws) width (lines ++ [snd x])
  | _, _ => Ok (mkFilled queue lines prev)
  end.
(** 113: [height // lead or not allow_empty] (heights are finite here) *)
Definition max_line_count (height lead : num) (allow_empty : bool) : Z :=
  let q := nfloordiv height lead in
  if (q =? 0)%Z then (if allow_empty then 0 else 1)%Z else q.
(** 106-121: [take_box] *)
Definition take_box (queue : option (list wordlike)) (col : num * num) (allow_empty : bool) (lead : num)
  : res filled :=
  if neqb lead n0 then Err EZeroDiv
  else take_lines (Z.to_nat (max_line_count (snd col) lead allow_empty)) queue queue (fst col) [].

(** 86-97: [_shape_simple]; columns are an infinite stream, [fuel] bounds the
    number of columns used *)
Fixpoint shape_simple (fuel : nat) (ws : option (list wordlike)) (cols : nat -> num * num)
         (allow_empty : bool) (lead : num) : res (list (list line)) :=
  match fuel with
  | O => Err EFuel
  | S fuel' =>
      do b <- take_box ws (cols 0) allow_empty lead;
      match b_rest b with
      | None => Ok [b_lines b]
      | Some ws' => do r <- shape_simple fuel' (Some ws') (fun i => cols (S i)) false lead;
                    Ok (b_lines b :: r)
      end
  end.
(** 57-82: the loop of [_shape_avoid_orphans]; [cols 0] is the current column,
    [lines], [undo] are what the previous column got *)
Fixpoint orphan_loop (fuel : nat) (ws : option (list wordlike)) (lines : list line)
         (undo : option (list wordlike)) (cols : nat -> num * num) (lead : num)
  : res (list (list line)) :=
  match fuel with
  | O => Err EFuel
  | S fuel' =>
      do b <- take_box ws (cols 0) false lead;
      match b_rest b with
      | Some ws' => do r <- orphan_loop fuel' (Some ws') (b_lines b) (b_undo b) (fun i => cols (S i)) lead;
                    Ok (lines :: r)
      | None =>
          if (List.length (b_lines b) =? 1) && (2 <? List.length lines)
             && nleb (nmul lead (nZ 2)) (snd (cols 0)) then
            match undo with
            | None => Err EAssertion
            | Some u =>
                do n <- take_box (Some u) (cols 0) false lead;
                if List.length (b_lines n) =? 1 then Ok [lines; b_lines b]
                else orphan_loop fuel' (Some u) (removelast lines) (b_undo n) cols lead
            end
          else Ok [lines; b_lines b]
      end
  end.
(** 40-56: [_shape_avoid_orphans] before the loop *)
Definition shape_orphans (fuel : nat) (ws : option (list wordlike)) (cols : nat -> num * num)
           (allow_empty : bool) (lead : num) : res (list (list line)) :=
  do b <- take_box ws (cols 0) allow_empty lead;
  match b_rest b with
  | None => Ok [b_lines b]
  | Some ws' =>
      if (List.length (b_lines b) =? 1) && allow_empty
      then orphan_loop fuel (b_undo b) [] (b_undo b) (fun i => cols (S i)) lead
      else orphan_loop fuel (Some ws') (b_lines b) (b_undo b) (fun i => cols (S i)) lead
  end.

(** 175-191: [Line.justify] *)
Definition tail_sizes (ws : list wordlike) : num :=
  nsum (map (fun w => st_size (wl_state w))
            (filter (fun w => match wl_tail w with Some _ => true | None => false end) ws)).
Definition justify (l : line) : res line :=
  match pdiv (l_space l) (tail_sizes (l_words l)) with
  | Err _ => Ok l
  | Ok per =>
      do ws <- mapM (fun w => wl_extend_tail w (nmul per (st_size (wl_state w)))) (l_words l);
      Ok (mkLine ws (nadd (l_width l) (l_space l)) n0)
  end.
(** 16-37: [shape] *)
Definition ff_shape (fuel : nat) (ws : list wordlike) (cols : nat -> num * num) (allow_empty : bool)
           (lead : num) (avoid_orphans : bool) (justified : bool) : res (list (list line)) :=
  do cs <- (if avoid_orphans then shape_orphans else shape_simple) fuel (Some ws) cols allow_empty lead;
  if justified then mapM (mapM justify) cs else Ok cs.
End Firstfit.
