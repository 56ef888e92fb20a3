(** * WordsSpec: what words mean.

    [measured]: the characters of a word, each with the text state in which its
    fragment was measured and will be encoded.
    [exec]: the characters a reader sees when the fragments are shown one after
    another in the current state, and the commands inside the word are executed
    where they stand.
    Neither looks at widths or kerning. *)
From Verif Require Import Base Num Fonts State TextSpec Words.
Open Scope nat_scope.

Section Spec.
Context {NUM : Num} {ENV : Env NUM}.

Definition measured_slug (s : slug) : list schar := styled_str (sl_txt s) (sl_state s).
Definition measured_segs (l : list (slug * command)) : list schar :=
  flat_map (fun p => measured_slug (fst p)) l.
Definition measured_box (b : box) : list schar :=
  match b with BSlug s => measured_slug s | BMixed segs _ => measured_segs segs end.
Definition measured_tail (t : option tspace) (s : state) : list schar :=
  match t with Some _ => [(32%N, s)] | None => [] end.
Definition measured_word (w : word) : list schar :=
  flat_map measured_box (w_boxes w) ++ measured_tail (w_tail w) (w_state w).
Fixpoint measured (w : wordlike) : list schar :=
  match w with WBox b => measured_box b | WWord w => measured_word w | WCmd w _ => measured w end.
Definition measured_all (l : list wordlike) : list schar := flat_map measured l.
Definition text (w : wordlike) : str := map fst (measured w).

(** showing in state [s]: what is shown, and the state afterwards *)
Fixpoint exec_segs (l : list (slug * command)) (s : state) : list schar * state :=
  match l with
  | [] => ([], s)
  | (x, c) :: r => let (t, e) := exec_segs r (apply c s) in (styled_str (sl_txt x) s ++ t, e)
  end.
Definition exec_box (b : box) (s : state) : list schar * state :=
  match b with BSlug x => (styled_str (sl_txt x) s, s) | BMixed l _ => exec_segs l s end.
Fixpoint exec_boxes (l : list box) (s : state) : list schar * state :=
  match l with
  | [] => ([], s)
  | b :: r => let (t, s1) := exec_box b s in let (u, e) := exec_boxes r s1 in (t ++ u, e)
  end.
Definition exec_word (w : word) (s : state) : list schar * state :=
  let (t, e) := exec_boxes (w_boxes w) s in (t ++ measured_tail (w_tail w) e, e).
Fixpoint exec (w : wordlike) (s : state) : list schar * state :=
  match w with
  | WBox b => exec_box b s
  | WWord w => exec_word w s
  | WCmd w c => let (t, e) := exec w s in (t, apply c e)
  end.
Fixpoint exec_all (l : list wordlike) (s : state) : list schar * state :=
  match l with
  | [] => ([], s)
  | w :: r => let (t, s1) := exec w s in let (u, e) := exec_all r s1 in (t ++ u, e)
  end.

(** A hyphenation function that splits words into non-empty parts. *)
Definition splits (hy : str -> list str) : Prop :=
  forall w, w <> [] -> concat (hy w) = w /\ Forall (fun p => p <> []) (hy w).
Definition all_split : Prop := forall h, splits (hyphenator h).

(** A text that ends at a place where a line may be broken. *)
Definition ends_at_break (t : str) : bool :=
  match rev t with
  | c :: _ => (c =? 32) || (c =? 45) || (c =? 8203) || (c =? 8212)
  | [] => false
  end%N.
(** No passage is empty right after a word boundary (unless no text follows). *)
Definition no_empty_at_break (ps : list passage) : Prop :=
  forall a c b, ps = a ++ (c, []) :: b -> ends_at_break (text_of a) = true -> text_of b = [].
(** Merging commands loses nothing on any stretch of passages without text
    (automatic when every passage has text). *)
Definition runs_ok (ps : list passage) : Prop :=
  forall a run b, ps = a ++ run ++ b ->
    Forall (fun p : passage => snd p = []) (removelast run) ->
    forall s, apply (squash (map fst run)) s = apply_all (map fst run) s.
End Spec.
