(** * GreedySpec: lines as full as possible, in exact arithmetic.

    A text is cut into the pieces of [OptimalSpec] (a line may end after each of them);
    this says how wide a run of pieces is as a line of its own, and what it means that
    no line could have taken more. *)
From Coq Require Import QArith Qcanon.
From Verif Require Import Base Num Fonts State Words WordsSpec RenderSpec LineSpec.
From Verif Require Export OptimalSpec.
Open Scope Qc_scope.

Section Spec.
Context {ENV : Env QcNum}.

(** At the start of a line there is no kerning with what came before. *)
Definition at_start (p : piece) : piece :=
  mkPiece (wl_without_init_kern (pc_in p)) (map wl_without_init_kern (pc_end p)) (pc_space p) (pc_hyphen p).
Definition starting (ln : list piece) : list piece :=
  match ln with [] => [] | p :: r => at_start p :: r end.
(** The width of a line; [kept]: with the adjustment before its first character (the
    paragraph's indent, or kerning). *)
Definition line_width (kept : bool) (ln : list piece) : Qc :=
  all_advance (shown (if kept then ln else starting ln)).
(** A line that is a single piece too wide for the column. *)
Definition too_wide (W : Qc) (kept : bool) (ln : list piece) : Prop :=
  List.length ln = 1%nat /\ W < line_width kept ln.

(** Every line fits in its column (or is a single piece that cannot), and the piece that
    starts the next line would not have fitted on it as well.  Only after a piece that
    was too wide may a line keep the adjustment at its start. *)
Fixpoint all_full (widths : list Qc) (lns : list (bool * list piece)) : Prop :=
  match widths, lns with
  | [], [] => True
  | W :: widths, (kept, ln) :: r =>
      ln <> [] /\ (line_width kept ln <= W \/ too_wide W kept ln)
      /\ match r with
         | [] => True
         | (_, []) :: _ => False
         | (kept', p :: _) :: _ =>
             (W < line_width kept (ln ++ [p]) \/ too_wide W kept ln)
             /\ (kept' = true -> too_wide W kept ln)
         end
      /\ all_full widths r
  | _, _ => False
  end.

(** The line shows the pieces. *)
Definition shows_pieces (ln : list piece) (l : list wordlike) : Prop :=
  is_line_of (measured_all (map pc_in ln)) (measured_all l).

(** ** Other ways to cut the text, into lines for the same columns *)
Definition flagged (lns : list (list piece)) : list (bool * list piece) :=
  match lns with [] => [] | ln :: r => (true, ln) :: map (pair false) r end.
Definition fit_in (widths : list Qc) (lns : list (list piece)) : Prop :=
  Forall (fun ln => ln <> []) lns
  /\ Forall (fun x => line_width (fst (snd x)) (snd (snd x)) <= fst x) (combine widths (flagged lns)).

(** A line that is part of another is not wider. *)
Definition parts_narrower (pcs : list piece) : Prop :=
  forall a x l y c, pcs = a ++ x ++ l ++ y ++ c -> l <> [] ->
    (x <> [] -> forall k k', line_width k l <= line_width k' (x ++ l ++ y))
    /\ (forall k, line_width k l <= line_width k (l ++ y)).
(** This is so if nothing is out of the ordinary: no hyphen is wider than the syllable
    that follows it, and no kerning is wider than the piece before it. *)
Definition piece_in (kept : bool) (p : piece) : Qc := wl_advance (pc_in (if kept then p else at_start p)).
Definition piece_end (kept : bool) (p : piece) : Qc := all_advance (pc_end (if kept then p else at_start p)).
Definition tidy (pcs : list piece) : Prop :=
  forall a p p' c, pcs = a ++ p :: p' :: c -> forall k k',
    piece_end k p <= piece_in k p + piece_end true p'
    /\ piece_end k' p' <= piece_in k p + piece_end true p'
    /\ piece_in k' p' <= piece_in k p + piece_in true p'.
End Spec.
