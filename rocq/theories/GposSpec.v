(** * GposSpec: what the kerning of a font is (OpenType 1.9, GPOS, lookup type 2).

    The lookups listed by the features tagged "kern" are applied one after the other,
    in the order of their numbers; their adjustments add up.  Within a lookup the first
    subtable that applies to the pair is used.  A subtable of format 1 applies if it
    lists the pair; one of format 2 applies if it covers the first glyph: the value is
    that of the classes of the two glyphs, a glyph without class having class 0.  Only
    the advance of the first glyph matters here (bit 2 of the value format).
    Contextual lookups are not pair kerning. *)
From Verif Require Import Base Gpos.
Open Scope nat_scope.

Fixpoint assoc {V} (d : list (N * V)) (k : N) : option V :=
  match d with [] => None | (k', v) :: r => if (k =? k')%N then Some v else assoc r k end.
Fixpoint position (l : list N) (g : N) : option nat :=
  match l with [] => None | x :: r => if (g =? x)%N then Some 0 else option_map S (position r g) end.
Definition advance (vf : N) (v : value) : Z := if N.testbit vf 2 then v_xadv v else 0%Z.
Definition class_of (cd : list (N * nat)) (g : N) : nat := match assoc cd g with Some c => c | None => 0 end.
(** the record of two classes; 0 if there is none (malformed) *)
Definition cell (recs : list (list value)) (i j : nat) : value := nth j (nth i recs []) (mkV 0 0).
(** the adjustment by a subtable; [None]: it does not apply *)
Definition sub_adj (p : pairpos) (a b : N) : option Z :=
  match p with
  | PP1 cov vf sets =>
      match position cov a with
      | Some i => option_map (advance vf) (assoc (nth i sets []) b)
      | None => None
      end
  | PP2 cov vf cd1 cd2 recs =>
      match position cov a with
      | Some _ => Some (advance vf (cell recs (class_of cd1 a) (class_of cd2 b)))
      | None => None
      end
  | _ => None
  end.
(** the subtables of a lookup; an extension stands for what it contains *)
Definition unwrap (s : subtable) : option pairpos :=
  match s with SPair p => Some p | SExt ty p => if (ty =? 2)%N then Some p else None end.
Definition subs_of (l : lookup) : list pairpos :=
  flat_map (fun s => match unwrap s with Some p => [p] | None => [] end) (lk_subtables l).
Fixpoint first_adj (ps : list pairpos) (a b : N) : Z :=
  match ps with [] => 0%Z | p :: r => match sub_adj p a b with Some z => z | None => first_adj r a b end end.
Definition is_pair_lookup (l : lookup) : bool := ((lk_type l =? 2) || (lk_type l =? 9))%N.
(** the pair lookups of the kern features, in order of number *)
Definition kern_indices (g : gpos) : list nat :=
  filter (fun i => existsb (fun f => (fst f && existsb (Nat.eqb i) (snd f))%bool) (gp_features g))
         (seq 0 (length (gp_lookups g))).
Definition kern_lookups (g : gpos) : list lookup :=
  filter is_pair_lookup (flat_map (fun i => match nth_error (gp_lookups g) i with Some l => [l] | None => [] end)
                                  (kern_indices g)).
Definition zsum (l : list Z) : Z := fold_right Z.add 0%Z l.
(** the kerning between two glyphs, in units of the font *)
Definition ot_kern (g : gpos) (a b : N) : Z := zsum (map (fun l => first_adj (subs_of l) a b) (kern_lookups g)).

(** which subtables apply to the pair, each with the place of its lookup *)
Definition is_some {A} (o : option A) : bool := match o with Some _ => true | None => false end.
Fixpoint hits_from (i : nat) (ls : list lookup) (a b : N) : list (nat * pairpos) :=
  match ls with
  | [] => []
  | l :: r => map (pair i) (filter (fun p => is_some (sub_adj p a b)) (subs_of l)) ++ hits_from (S i) r a b
  end.
Definition hits (g : gpos) (a b : N) : list (nat * pairpos) := hits_from 0 (kern_lookups g) a b.
Definition left_to_right (p : pairpos) : Prop :=
  match p with PP1 _ vf _ | PP2 _ vf _ _ _ => vf = 4%N | _ => True end.

(** a well-formed subtable: glyphs are listed once, every covered glyph has its
    PairSet, classes have their records *)
Definition wf_pairpos (p : pairpos) : Prop :=
  match p with
  | PP1 cov _ sets => NoDup cov /\ length sets = length cov /\ Forall (fun s => NoDup (map fst s)) sets
  | PP2 cov _ cd1 cd2 recs =>
      NoDup cov /\ NoDup (map fst cd1) /\ NoDup (map fst cd2) /\
      0 < length recs /\ Forall (fun e => snd e < length recs) cd1 /\
      Forall (fun row => Forall (fun e => snd e < length row) cd2) recs
  | PPOther => True
  | PPNone => False
  end.
Definition wf_subtable (s : subtable) : Prop :=
  match s with SPair p => wf_pairpos p | SExt ty p => ty = 8%N \/ (ty = 2%N /\ wf_pairpos p) end.
Definition wf_gpos (g : gpos) : Prop :=
  Forall (fun l => is_pair_lookup l = true -> Forall wf_subtable (lk_subtables l)) (gp_lookups g) /\
  Forall (fun f : bool * list nat => fst f = true -> Forall (fun i => i < length (gp_lookups g)) (snd f)) (gp_features g).

(** a subtable as font tools write it: left-to-right; a glyph with a class of its own
    is covered; glyphs without class are not kerned *)
Definition usual_pairpos (p : pairpos) : Prop :=
  left_to_right p /\
  match p with
  | PP2 cov _ cd1 _ recs =>
      (forall g c, In (g, S c) cd1 -> In g cov) /\ Forall (fun row => v_xadv (nth 0 row (mkV 0 0)) = 0%Z) recs
  | _ => True
  end.
Definition usual_gpos (g : gpos) : Prop := Forall (fun l => Forall usual_pairpos (subs_of l)) (kern_lookups g).
(** the pair is dealt with once: by no subtable, by one, or by a listed pair that
    precedes classes in the same lookup *)
Definition dealt_with_once (g : gpos) (a b : N) : Prop :=
  match hits g a b with
  | [] | [_] => True
  | [(i, PP1 _ _ _); (j, PP2 _ _ _ _ _)] => i = j
  | _ => False
  end.
