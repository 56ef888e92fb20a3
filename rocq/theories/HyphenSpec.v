(** * HyphenSpec: Liang's hyphenation algorithm (F. M. Liang, Word Hy-phen-a-tion by
    Com-put-er, 1983; The TeXbook, appendix H).

    A pattern is a sequence of letters (the dot stands for the beginning or end of the
    word) with digits between them: a value for each gap, 0 if there is no digit.  Each
    occurrence of a pattern in the dotted word proposes its values for the gaps it
    covers; the highest counts; a hyphen is allowed where it is odd. *)
From Verif Require Import Base.
Open Scope nat_scope.

Definition letter (c : char) : Prop := ((97 <= c <= 122)%N \/ c = 46%N).
Definition digit (c : char) : Prop := (48 <= c <= 57)%N.
(** the digits before the first letter; each letter with the digits after it *)
Record pattern := mkPat { p_first : str; p_rest : list (char * str) }.
Definition well_formed (p : pattern) : Prop :=
  Forall digit (p_first p) /\ Forall (fun x => letter (fst x) /\ Forall digit (snd x)) (p_rest p).
(** how it is written *)
Definition pat_str (p : pattern) : str := p_first p ++ flat_map (fun x => fst x :: snd x) (p_rest p).
Definition pat_letters (p : pattern) : str := map fst (p_rest p).
Fixpoint decimal (acc : nat) (d : str) : nat :=
  match d with [] => acc | c :: r => decimal (10 * acc + N.to_nat (c - 48)) r end.
Definition pat_values (p : pattern) : list nat := decimal 0 (p_first p) :: map (fun x => decimal 0 (snd x)) (p_rest p).

(** Pattern [p] of the list [ps] proposes [x] for the gap before character [i] of
    [word].  (Of several patterns with the same letters, the last one counts.) *)
Definition proposes (ps : list pattern) (word : str) (i x : nat) : Prop :=
  exists before p after a b,
    ps = before ++ p :: after /\ ~ In (pat_letters p) (map pat_letters after)
    /\ pat_letters p <> [] /\ word = a ++ pat_letters p ++ b
    /\ List.length a <= i /\ nth_error (pat_values p) (i - List.length a) = Some x.
(** The value of a gap: the highest proposal; 0 if there is none. *)
Definition gap_value (ps : list pattern) (word : str) (i v : nat) : Prop :=
  (forall x, proposes ps word i x -> x <= v) /\ (v = 0 \/ proposes ps word i v).
Definition dotted (w : str) : str := [46%N] ++ w ++ [46%N].

(** [parts] has a break after [k] characters *)
Definition break_at (parts : list str) (k : nat) : Prop :=
  exists a b, parts = a ++ b /\ a <> [] /\ b <> [] /\ List.length (concat a) = k.
(** an exception: a word with hyphens *)
Definition hyphenated (parts : list str) : str :=
  match parts with [] => [] | p :: r => p ++ flat_map (fun q => 45%N :: q) r end.
