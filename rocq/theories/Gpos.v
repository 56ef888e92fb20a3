(** * Gpos: reading kerning pairs from a font's GPOS table.

    Models src/pdfje/vendor/get_kerning_pairs.py and the line of fonts/embed.py that
    makes a kerning table out of its result.  A [gpos] is what fontTools presents of
    the table: the features with their lookup indices and the lookups with their
    subtables.  Glyph names are numbers: only their identity matters (the one [sort]
    by name, line 205, only changes the order in which equal values are stored).
    Python dictionaries are association lists; [dset] stores, [dget] looks up. *)
From Coq Require Import QArith.
From Verif Require Import Base Num.
Open Scope nat_scope.

Notation glyph := N.
(** what fontTools gives as [Value1]: [XPlacement] and [XAdvance] *)
Record value := mkV { v_xpl : Z; v_xadv : Z }.
(** a PairPos subtable: [PP1] for [Format == 1], [PP2] for [Format == 2], [PPOther]
    for any other number; [PPNone]: an object that is not a PairPos subtable but has
    [Format == 1] and no [Coverage] (an ExtensionPos).  The second argument is
    [ValueFormat1]. *)
Inductive pairpos :=
| PP1 (cov : list glyph) (vf : N) (sets : list (list (glyph * value)))
| PP2 (cov : list glyph) (vf : N) (cd1 cd2 : list (glyph * nat)) (recs : list (list value))
| PPOther
| PPNone.
(** a subtable of a lookup: a PairPos, or an extension of the given type that wraps
    a subtable *)
Inductive subtable := SPair (p : pairpos) | SExt (ty : N) (p : pairpos).
Record lookup := mkLookup { lk_type : N; lk_subtables : list subtable }.
(** a feature: is its tag "kern", and its [LookupListIndex] *)
Record gpos := mkGpos { gp_features : list (bool * list nat); gp_lookups : list lookup }.

(** the values of [kerningPairs]: a number, or the text "<x 0 a 0>" of a right-to-left pair *)
Inductive kval := KNum (z : Z) | KRtl (x a : Z).

Section Dict.
Context {K V : Type} (eqb : K -> K -> bool).
(** [d.get(k)] *)
Fixpoint dget (d : list (K * V)) (k : K) : option V :=
  match d with
  | [] => None
  | (k', v) :: r => if eqb k k' then Some v else dget r k
  end.
(** [d[k] = v] *)
Fixpoint dset (d : list (K * V)) (k : K) (v : V) : list (K * V) :=
  match d with
  | [] => [(k, v)]
  | (k', v') :: r => if eqb k k' then (k, v) :: r else (k', v') :: dset r k v
  end.
End Dict.
Definition pair_eqb (p q : N * N) : bool := ((fst p =? fst q) && (snd p =? snd q))%N.
Definition pairs := list ((glyph * glyph) * kval).

(** get_kerning_pairs.py 51-62: [collect_unique_kern_lookup_indexes] *)
Definition unique_kern_lookups (fs : list (bool * list nat)) : list nat :=
  fold_left (fun acc f =>
      if (fst f : bool) then fold_left (fun acc i => if existsb (Nat.eqb i) acc then acc else acc ++ [i]) (snd f) acc
      else acc) fs [].
(** [sorted]: insertion into an ascending list *)
Fixpoint insert (i : nat) (l : list nat) : list nat :=
  match l with [] => [i] | j :: r => if i <=? j then i :: l else j :: insert i r end.
Definition sorted (l : list nat) : list nat := fold_right insert [] l.
Definition nth_res {A} (l : list A) (i : nat) : res A :=
  match nth_error l i with Some x => Ok x | None => Err EIndex end.
(** get_kerning_pairs.py 97-128: [findKerningLookups] *)
Definition find_lookups (g : gpos) : res (list lookup) :=
  do ls <- mapM (nth_res (gp_lookups g)) (sorted (unique_kern_lookups (gp_features g)));
  Ok (filter (fun l => (lk_type l =? 2) || (lk_type l =? 9))%N ls).
(** get_kerning_pairs.py 130-140: [getPairPos].  An extension of a type other than 2
    and 8 is kept as it is, although it is not a PairPos. *)
Definition pair_pos (s : subtable) : list pairpos :=
  match s with
  | SPair p => [p]
  | SExt ty p => if (ty =? 8)%N then [] else if (ty =? 2)%N then [p] else [PPNone]
  end.
Definition pair_pos_list (ls : list lookup) : list pairpos := flat_map (fun l => flat_map pair_pos (lk_subtables l)) ls.

(** get_kerning_pairs.py 147-182: [getSinglePairs], for one subtable.  A subtable
    without [Coverage] raises AttributeError (here [EType]); a PairSet without glyph
    raises IndexError. *)
Definition single_value (vf : N) (v : value) : option kval :=
  if (vf =? 5)%N then Some (KRtl (v_xpl v) (v_xadv v))
  else if (vf =? 0)%N then Some (KRtl 0 0)
  else if (vf =? 4)%N then Some (KNum (v_xadv v))
  else None.
Fixpoint foldM {A B} (f : B -> A -> res B) (l : list A) (b : B) : res B :=
  match l with [] => Ok b | x :: r => do b' <- f b x; foldM f r b' end.
Definition single_record (cov : list glyph) (vf : N) (i : nat) (m : pairs) (rec : glyph * value) : res pairs :=
  match single_value vf (snd rec) with
  | Some k => do a <- nth_res cov i; Ok (dset pair_eqb m (a, fst rec) k)
  | None => Ok m
  end.
Fixpoint single_sets (cov : list glyph) (vf : N) (i : nat) (sets : list (list (glyph * value))) (m : pairs) : res pairs :=
  match sets with
  | [] => Ok m
  | s :: r => do m <- foldM (single_record cov vf i) s m; single_sets cov vf (S i) r m
  end.
Definition single_pairs (m : pairs) (p : pairpos) : res pairs :=
  match p with
  | PP1 cov vf sets => single_sets cov vf 0 sets m
  | PPNone => Err EType
  | _ => Ok m
  end.

(** [classes.setdefault(c, new).glyphs.append(g)] *)
Fixpoint class_add (m : list (nat * list glyph)) (c : nat) (g : glyph) : list (nat * list glyph) :=
  match m with
  | [] => [(c, [g])]
  | (c', gs) :: r => if c =? c' then (c', gs ++ [g]) :: r else (c', gs) :: class_add r c g
  end.
Definition mem (g : glyph) (l : list glyph) : bool := existsb (N.eqb g) l.
(** [set(..)]: each element once *)
Fixpoint distinct (l : list glyph) : list glyph :=
  match l with [] => [] | x :: r => if mem x r then distinct r else x :: distinct r end.
(** get_kerning_pairs.py 197-227: the left classes; class 0 is the coverage without
    the glyphs that have another class *)
Definition left_classes (cov : list glyph) (cd1 : list (glyph * nat)) : list (nat * list glyph) :=
  let class_glyphs := map fst (filter (fun e => negb (snd e =? 0)) cd1) in
  fold_left (fun m e => if snd e =? 0 then m else class_add m (snd e) (fst e)) cd1
    [(0, filter (fun g => negb (mem g class_glyphs)) (distinct cov))].
(** get_kerning_pairs.py 229-239: the right classes *)
Definition right_classes (cd2 : list (glyph * nat)) : list (nat * list glyph) :=
  fold_left (fun m e => class_add m (snd e) (fst e)) cd2 [].
(** get_kerning_pairs.py 271-292: the pairs of two classes *)
Definition class_product (k : kval) (ls rs : list glyph) (m : pairs) : pairs :=
  fold_left (fun m l => fold_left (fun m r =>
      match dget pair_eqb m (l, r) with Some _ => m | None => dset pair_eqb m (l, r) k end) rs m) ls m.
(** get_kerning_pairs.py 241-292: one pair of classes.  The record is read before its
    format is looked at. *)
Definition class_pair (vf : N) (recs : list (list value)) (cl : nat * list glyph) (m : pairs) (cr : nat * list glyph)
  : res pairs :=
  do row <- nth_res recs (fst cl);
  do v <- nth_res row (fst cr);
  if ((vf =? 4) || (vf =? 5))%N then
    if (v_xadv v =? 0)%Z then Ok m
    else Ok (class_product (if (vf =? 5)%N then KRtl (v_xpl v) (v_xadv v) else KNum (v_xadv v)) (snd cl) (snd cr) m)
  else Ok m.
(** get_kerning_pairs.py 184-292: [getClassPairs], for one subtable *)
Definition class_pairs (m : pairs) (p : pairpos) : res pairs :=
  match p with
  | PP2 cov vf cd1 cd2 recs =>
      foldM (fun m cl => foldM (class_pair vf recs cl) (right_classes cd2) m) (left_classes cov cd1) m
  | _ => Ok m
  end.

(** get_kerning_pairs.py 65-83: [OTFKernReader(font).kerningPairs] *)
Definition kerning_pairs (g : option gpos) : res pairs :=
  match g with
  | None => Ok []
  | Some g =>
      do ls <- find_lookups g;
      let pp := pair_pos_list ls in
      do m <- foldM single_pairs pp [];
      foldM class_pairs pp m
  end.

(** get_kerning_pairs.py 297-299: [glyph_name_to_char], from the items of the cmap *)
Definition glyph_chars (cmap : list (N * glyph)) : list (glyph * N) :=
  fold_left (fun d e => dset N.eqb d (snd e) (fst e)) cmap [].
(** get_kerning_pairs.py 295-304: [for_font] *)
Definition for_font (cmap : list (N * glyph)) (g : option gpos) : res (list ((N * N) * kval)) :=
  do m <- kerning_pairs g;
  let d := glyph_chars cmap in
  Ok (fold_left (fun acc e =>
        match dget N.eqb d (fst (fst e)), dget N.eqb d (snd (fst e)) with
        | Some a, Some b => dset pair_eqb acc (a, b) (snd e)
        | _, _ => acc
        end) m []).

Section Kerning.
Context {NUM : Num}.
(** embed.py 126-130: [pipe(dictget(kernpairs, 0), scale.__mul__)], or nothing if there
    are no pairs.  [scale.__mul__] of a text is [NotImplemented], which is of no use as
    a number: any arithmetic with it raises TypeError. *)
Definition scaled (scale : num) (k : kval) : res num :=
  match k with KNum z => Ok (nmul scale (nZ z)) | KRtl _ _ => Err EType end.
Definition embed_kerning (scale : num) (kp : list ((N * N) * kval)) : option (N -> N -> res num) :=
  match kp with
  | [] => None
  | _ => Some (fun a b => scaled scale (match dget pair_eqb kp (a, b) with Some k => k | None => KNum 0 end))
  end.
(** embed.py 151-152: [Subset.charkern] *)
Definition embed_charkern (t : option (N -> N -> res num)) (a b : N) : res num :=
  match t with Some t => t a b | None => Ok (nZ 0) end.
End Kerning.
