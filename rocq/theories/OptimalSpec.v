(** * OptimalSpec: the best way to break a text into lines, in exact arithmetic.

    A text is cut into pieces; a line may end after each of them.  This says what each
    line is worth, and which ways of breaking are allowed, in terms of the text as it
    is shown: no positions, cumulative widths or search.  (Knuth and Plass, "Breaking
    paragraphs into lines", with the docstrings of [optimum_fit] and [LinebreakParams].) *)
From Coq Require Import QArith Qcanon.
From Verif Require Import Base Num Fonts State Words WordsSpec RenderSpec KnuthPlass.
Open Scope Qc_scope.

(** What is tolerable at the [n]-th try: up to the tolerance asked for, then up to 2, 3,
    5 and 8 times as much, then anything (nothing, if no tolerance was asked for); there
    is no seventh try. *)
Definition tolerable (tolerance : Qc) (n : nat) : option (Qc -> Prop) :=
  match n with
  | 0%nat => Some (fun r => r <= tolerance)
  | 1%nat => Some (fun r => r <= Q2Qc 2 * tolerance)
  | 2%nat => Some (fun r => r <= Q2Qc 3 * tolerance)
  | 3%nat => Some (fun r => r <= Q2Qc 5 * tolerance)
  | 4%nat => Some (fun r => r <= Q2Qc 8 * tolerance)
  | 5%nat => Some (fun _ => 0 < tolerance)
  | _ => None
  end.

Section Spec.
Context {ENV : Env QcNum}.

(** A piece: as shown inside a line, as shown at the end of one, the space that may be
    stretched after it, and whether a line ending with it counts as hyphenated. *)
Record piece := mkPiece { pc_in : wordlike; pc_end : list wordlike; pc_space : Qc; pc_hyphen : bool }.
Definition ends_dashed (b : box) : bool :=
  match rev (measured_box b) with (c, _) :: _ => ((c =? 45) || (c =? 8212))%N | [] => false end.
(** Inside a word a hyphen is added at the end of the line. *)
Definition inner_piece (b : box) : piece := mkPiece (WBox b) [WBox (box_with_hyphen b)] 0 true.
(** A word that ends in a space loses it at the end of the line; one that does not (it is
    followed by a dash, or by nothing) counts as hyphenated if it ends in a dash. *)
Definition last_piece (b : list box) (t : option tspace) (st : state) : piece :=
  mkPiece (WWord (mkWord b t st)) (map (@WBox _) b)
    (match t with Some s => ts_width s | None => 0 end)
    (match t with Some _ => false | None => existsb ends_dashed b end).
Definition word_pieces (w : word) : list piece :=
  match rev (w_boxes w) with
  | [] => [last_piece [] (w_tail w) (w_state w)]
  | b :: r => map inner_piece (rev r) ++ [last_piece [b] (w_tail w) (w_state w)]
  end.
Fixpoint wl_pieces (w : wordlike) : list piece :=
  match w with WBox b => [] | WWord w => word_pieces w | WCmd w _ => wl_pieces w end.
Definition pieces (ws : list wordlike) : list piece := flat_map wl_pieces ws.

(** ** One line *)
Definition shown (ln : list piece) : list wordlike :=
  match rev ln with [] => [] | p :: r => map pc_in (rev r) ++ pc_end p end.
Definition spaces (ln : list piece) : Qc :=
  fold_right (fun p a => pc_space p + a) 0 (removelast ln).
Definition hyphen_end (ln : list piece) : bool :=
  match rev ln with p :: _ => pc_hyphen p | [] => false end.

(** [three]: three spaces; [W]: the width of the column *)
Variables (ragged : bool) (three : Qc).
(** How far a line is from filling its column.  Justified: which part of half (a third)
    of their width the spaces must grow (shrink) by; ragged: what is free, in units of
    three spaces. *)
Definition ratio (W : Qc) (ln : list piece) : Qc :=
  let n := all_advance (shown ln) in
  if ragged then (if Qcleb n W then (W - n) / three else Q2Qc (-2))
  else if Qceqb (spaces ln) 0 then (if Qceqb n W then 0 else Q2Qc 100 + n / W)
  else if Qcltb n W then (W - n) / (spaces ln * Q2Qc (1 # 2)) else (W - n) / (spaces ln * Q2Qc (1 # 3)).
(** the last line is not stretched *)
Definition last_ratio (W : Qc) (ln : list piece) : Qc :=
  if Qcltb 0 (ratio W ln) then 0 else ratio W ln.

(** ** Allowed ways: the stretch of every line but the last is tolerable, and none is
    shrunk by more than a third of its spaces (or too wide, if ragged).
    [width k] is the width of the column of the [k]-th line. *)
Variable width : nat -> Qc.
Fixpoint allowed_from (tolerable : Qc -> Prop) (k : nat) (lns : list (list piece)) : Prop :=
  match lns with
  | [] => False
  | ln :: r => ln <> []
      /\ match r with
         | [] => Q2Qc (-1) < last_ratio (width k) ln
         | _ => Q2Qc (-1) <= ratio (width k) ln /\ tolerable (ratio (width k) ln)
                /\ allowed_from tolerable (S k) r
         end
  end.
Definition allowed (tolerable : Qc -> Prop) (lns : list (list piece)) : Prop := allowed_from tolerable 0 lns.

(** ** Demerits *)
Variable P : @params QcNum.
(** tight, normal, loose, very loose *)
Definition class (r : Qc) : nat :=
  if Qcltb r (Q2Qc (-1 # 2)) then 0%nat else if Qcleb r (Q2Qc (1 # 2)) then 1%nat
  else if Qcleb r 1 then 2%nat else 3%nat.
Definition contrast (c c' : nat) : Qc :=
  if ((c <=? c' + 1) && (c' <=? c + 1))%nat then 0 else p_fitness P.
Definition sq (x : Qc) : Qc := x * x.
Definition abs (x : Qc) : Qc := if Qcltb x 0 then - x else x.
Definition badness (r : Qc) : Qc := Q2Qc 100 * (abs r * abs r * abs r).
(** [k]: the number of the first line; [c], [h]: the class of the line before, and
    whether it ended with a hyphen *)
Fixpoint demerits_from (k c : nat) (h : bool) (lns : list (list piece)) : Qc :=
  match lns with
  | [] => 0
  | ln :: l =>
      match l with
      | [] => let r := last_ratio (width k) ln in sq (1 + badness r) + contrast (class r) c
      | _ => let r := ratio (width k) ln in let hy := hyphen_end ln in
             sq (1 + badness r + if hy then p_hyphen P else 0)
             + (if hy && h then p_consecutive P else 0) + contrast (class r) c
             + demerits_from (S k) (class r) hy l
      end
  end.
Definition demerits (lns : list (list piece)) : Qc := demerits_from 0 1 false lns.

(** A line that is too long stays too long when it is extended. *)
Definition too_long_stays (pcs : list piece) : Prop :=
  forall k a l m c, pcs = a ++ l ++ m ++ c -> l <> [] ->
    ratio (width k) l < Q2Qc (-1) -> ratio (width k) (l ++ m) < Q2Qc (-1).
End Spec.

(** Three spaces of the style at (the end of) the first word. *)
Definition three_spaces {ENV : Env QcNum} (ws : list wordlike) : Qc :=
  match ws with
  | w :: _ => Q2Qc 3 * (st_size (wl_state w) * (spacewidth (st_font (wl_state w)) / Q2Qc 1000))
  | [] => 0
  end.

(** No hyphen is wider than the syllable that follows it, and the rest is ordinary: a
    line that ends with a piece is, with its spaces shrunk, not longer than one that
    ends with the next piece. *)
Definition grows {ENV : Env QcNum} (pcs : list piece) : Prop :=
  Forall (fun p => 0 <= pc_space p /\ 0 <= wl_advance (pc_in p) /\ 0 <= all_advance (pc_end p)) pcs
  /\ forall a p p' c, pcs = a ++ p :: p' :: c ->
     all_advance (pc_end p) + pc_space p * Q2Qc (1 # 3) <= wl_advance (pc_in p) + all_advance (pc_end p').
