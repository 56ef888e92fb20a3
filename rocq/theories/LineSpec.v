(** * LineSpec: what it means that lines show a text. *)
From Verif Require Import Base Num Fonts State TextSpec Words Firstfit.
Open Scope nat_scope.
Section Spec.
Context {NUM : Num}.
(** A line shows a piece of text: exactly, or with a hyphen added at the end, or
    with one space removed from the end. *)
Definition is_line_of (piece line : list schar) : Prop :=
  line = piece
  \/ (exists st, line = piece ++ [(45%N, st)])
  \/ (exists st, piece = line ++ [(32%N, st)]).
(** The lines show the text: it is cut into consecutive pieces, one for each line. *)
Definition conserves (lines : list (list schar)) (whole : list schar) : Prop :=
  exists pieces, concat pieces = whole /\ Forall2 is_line_of pieces lines.
Lemma conserves_app a b x y : conserves a x -> conserves b y -> conserves (a ++ b) (x ++ y).
Proof.
  intros (p & <- & F) (q & <- & G). exists (p ++ q). split; [apply concat_app|]. apply Forall2_app; auto.
Qed.
Lemma conserves_nil : conserves [] [].
Proof. exists []. split; auto. Qed.
Lemma conserves_one p l : is_line_of p l -> conserves [l] p.
Proof. intros H. exists [p]. split; [apply app_nil_r|auto]. Qed.
End Spec.

Section Words.
Context {NUM : Num} {ENV : Env NUM}.
(** a line consisting of one fragment that cannot be broken *)
Definition one_fragment (l : list wordlike) : Prop :=
  exists w, l = [w] /\ List.length (wl_boxes w) <= 1.
(** a line without its final space *)
Definition prune_last (l : list wordlike) : list wordlike :=
  match rev l with [] => [] | w :: r => rev r ++ [wl_pruned w] end.
(** the lines of the columns, each with its column's width *)
Fixpoint placed {A} (cols : nat -> num * num) (cs : list (list A)) : list (num * A) :=
  match cs with
  | [] => []
  | ls :: r => map (pair (fst (cols 0))) ls ++ placed (fun i => cols (S i)) r
  end.
(** all words of the columns in order *)
Definition words_shown (cs : list (list line)) : list wordlike := flat_map l_words (concat cs).
End Words.
