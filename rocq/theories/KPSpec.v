(** * KPSpec: what optimal line breaking means.

    Written from Knuth and Plass's definitions and the docstrings of
    [optimum_fit], without reference to the algorithm: a breaking is a way to
    cut the boxes into lines, each of which has an adjustment ratio; it has a
    total of demerits. *)
From Coq Require Import QArith.
From Verif Require Import Base Num KnuthPlass.
Open Scope nat_scope.

Section Spec.
Context {NUM : Num}.

(** The adjustment ratio of a line that starts at [start], ends at [stop] (both
    measured from the start of the paragraph; the hyphen included), has [st]
    of stretchability and [sh] of shrinkability, for a column of width [W]:
    how far its spaces must stretch (or shrink) to fill the column.  A line
    with nothing to stretch or shrink has a big ratio, unless it fits exactly. *)
Inductive justified_ratio (start stop st sh W : num) : num -> Prop :=
| jr_stretch : nltb (stop - start)%num W = true -> neqb st n0 = false ->
    justified_ratio start stop st sh W ((W - (stop - start)) / st)%num
| jr_shrink : nltb (stop - start)%num W = false -> neqb sh n0 = false ->
    justified_ratio start stop st sh W ((W - (stop - start)) / sh)%num
| jr_exact : neqb (stop - start)%num W = true ->
    neqb (if nltb (stop - start)%num W then st else sh) n0 = true ->
    justified_ratio start stop st sh W n0
| jr_rigid : neqb (stop - start)%num W = false ->
    neqb (if nltb (stop - start)%num W then st else sh) n0 = true -> neqb W n0 = false ->
    justified_ratio start stop st sh W (nZ 100 + (stop - start) / W)%num.
(** With ragged lines the ratio is the free space, in units of [u]; a line
    that does not fit has ratio -2. *)
Inductive ragged_ratio (start stop u W : num) : num -> Prop :=
| rr_fits : nleb n0 (W - stop + start)%num = true -> neqb u n0 = false ->
    ragged_ratio start stop u W ((W - stop + start) / u)%num
| rr_overfull : nleb n0 (W - stop + start)%num = false -> ragged_ratio start stop u W (nZ (-2)).

Variables (bs : list kbox) (width : nat -> num) (t : tol) (P : params) (ragged : bool).
(** Where a line that begins at box [i] starts: after the space that ends the
    line before it; and the stretch and shrink used up to there. *)
Definition line_start (i : nat) (f g h : num) : Prop :=
  match i with
  | 0 => f = n0 /\ g = n0 /\ h = n0
  | S i' => exists a b, nth_error bs i' = Some a /\ nth_error bs i = Some b
            /\ f = kb_incl_space a /\ g = kb_stretch b /\ h = kb_shrink b
  end.
(** The ratio of the [k]-th line if it consists of the boxes [i] to [j - 1] *)
Definition line_ratio (k i j : nat) (r : num) : Prop :=
  exists b f g h, 0 < j /\ nth_error bs (j - 1) = Some b /\ line_start i f g h
  /\ if ragged then ragged_ratio f (kb_incl_hyphen b) (kb_stretch b) (width k) r
     else justified_ratio f (kb_incl_hyphen b) (kb_stretch b - g)%num (kb_shrink b - h)%num (width k) r.

(** The class of a line: tight, normal, loose or very loose *)
Definition is_class (r : num) (c : nat) : Prop :=
  match c with
  | 0 => nltb r (nQ (-1 # 2)) = true
  | 1 => nltb r (nQ (-1 # 2)) = false /\ nleb r (nQ (1 # 2)) = true
  | 2 => nltb r (nQ (-1 # 2)) = false /\ nleb r (nQ (1 # 2)) = false /\ nleb r (nZ 1) = true
  | 3 => nltb r (nQ (-1 # 2)) = false /\ nleb r (nQ (1 # 2)) = false /\ nleb r (nZ 1) = false
  | _ => False
  end.
(** neighbouring lines contrast if their classes are not the same or adjacent *)
Definition contrasting (c c' : nat) : bool := negb ((c <=? c' + 1) && (c' <=? c + 1)).
(** demerits: badness and hyphen penalty squared, ... *)
Definition badness (r penalty : num) : num :=
  npow (nZ 1 + nZ 100 * npow (nabs r) 3 + penalty)%num 2.
(** ... plus penalties for two hyphens in a row and for contrasting lines *)
Definition demerits (r : num) (hyph hyph_before : bool) (c c_before : nat) : num :=
  (badness r (p_hyphen P * nbool hyph)
   + p_consecutive P * nbool hyph * nbool hyph_before
   + nbool (contrasting c c_before) * p_fitness P)%num.
Definition last_demerits (r : num) (c c_before : nat) : num :=
  (badness r n0 + nbool (contrasting c c_before) * p_fitness P)%num.

(** [breaking k i c h d l total]: the boxes from [i] on can be cut into the
    lines [l] (end position, ratio), numbered from [k]; [c] is the class of the
    line before, [h] whether it was hyphenated, [d] the demerits so far. *)
Inductive breaking : nat -> nat -> nat -> bool -> num -> list (nat * num) -> num -> Prop :=
| br_last k i c h d q r c' :
    i < List.length bs -> line_ratio k i (List.length bs) q ->
    r = nmin q n0 -> nltb (nZ (-1)) r = true -> is_class r c' ->
    breaking k i c h d [(List.length bs, r)] (last_demerits r c' c + d)%num
| br_line k i c h d p b r c' l total :
    i < p < List.length bs -> nth_error bs (p - 1) = Some b -> kb_no_break b = false ->
    line_ratio k i p r -> nltb r (nZ (-1)) = false -> within r t = true -> is_class r c' ->
    breaking (S k) p c' (kb_hyphenated b) (demerits r (kb_hyphenated b) h c' c + d)%num l total ->
    breaking k i c h d ((p, r) :: l) total.
(** the breakings of the whole paragraph *)
Definition feasible (l : list (nat * num)) (total : num) : Prop :=
  breaking 0 0 1 false n0 l total.

(** A line that is too long at a possible break stays too long when extended. *)
Definition overfull_stays : Prop :=
  forall k i j j' b r r',
    i < j -> j < j' -> j' <= List.length bs ->
    nth_error bs (j - 1) = Some b -> kb_no_break b = false ->
    line_ratio k i j r -> nltb r (nZ (-1)) = true ->
    line_ratio k i j' r' -> nltb r' (nZ (-1)) = true.
End Spec.

(** The order laws optimality rests on.  They hold for exact numbers, and for
    IEEE doubles as long as no nan occurs (rounding is monotone). *)
Record ordered (NUM : Num) : Prop := {
  o_refl : forall a : num, nltb a a = false;
  o_asym : forall a b : num, nltb a b = true -> nltb b a = false;
  o_trans : forall a b c : num, nltb b a = false -> nltb c b = false -> nltb c a = false;
  o_add : forall a b c : num, nltb b a = false -> nltb (c + b)%num (c + a)%num = false;
  o_neg : nltb (nZ (-1)) n0 = true }.
