(** * Hyphen: hyphenation functions.
    /repo/src/pdfje/vendor/hyphenate.py, /repo/src/pdfje/typeset/hyphens.py *)
From Verif Require Import Base.
Open Scope nat_scope.

(** ** vendor/hyphenate.py *)

(** 26-30, 45-53: the tree: a dict from characters to subtrees; the key [None]
    holds the points. *)
Inductive trie := Node (points : option (list nat)) (children : list (char * trie)).
Definition t_points (t : trie) : option (list nat) := match t with Node p _ => p end.
Definition t_children (t : trie) : list (char * trie) := match t with Node _ c => c end.
Definition t_empty : trie := Node None [].
(** [t[c]]; None when [c not in t] *)
Fixpoint child (c : char) (l : list (char * trie)) : option trie :=
  match l with
  | [] => None
  | (d, t) :: r => if (c =? d)%N then Some t else child c r
  end.
Fixpoint set_child (c : char) (t : trie) (l : list (char * trie)) : list (char * trie) :=
  match l with
  | [] => [(c, t)]
  | (d, u) :: r => if (c =? d)%N then (c, t) :: r else (d, u) :: set_child c t r
  end.
(** 48-53 *)
Fixpoint insert (chars : str) (points : list nat) (t : trie) : trie :=
  match chars with
  | [] => Node (Some points) (t_children t)
  | c :: r =>
      let sub := match child c (t_children t) with Some s => s | None => t_empty end in
      Node (t_points t) (set_child c (insert r points sub) (t_children t))
  end.

Definition is_az (c : char) : bool := ((97 <=? c) && (c <=? 122))%N.
Definition is_digit (c : char) : bool := ((48 <=? c) && (c <=? 57))%N.
Definition is_dot (c : char) : bool := (c =? 46)%N.
(** 42: [re.sub(r"[0-9]", "", pattern)] *)
Definition pattern_chars (p : str) : str := filter (fun c => negb (is_digit c)) p.
(** [re.split(sep, s)] for a single-character class *)
Fixpoint re_split (sep : char -> bool) (s : str) : list str :=
  match s with
  | [] => [[]]
  | c :: r => if sep c then [] :: re_split sep r
              else match re_split sep r with
                   | x :: xs => (c :: x) :: xs
                   | [] => [[c]]
                   end
  end.
(** 43: [int(d or 0)] for a string of digits; anything else raises ValueError
    (Python's int also takes signs, spaces and underscores: not modelled) *)
Definition int_or_0 (d : str) : res nat :=
  if forallb is_digit d
  then Ok (N.to_nat (fold_left (fun a c => 10 * a + (c - 48))%N d 0%N))
  else Err EValue.
Definition pattern_points (p : str) : res (list nat) :=
  mapM int_or_0 (re_split (fun c => is_dot c || is_az c) p).
(** 39-53 *)
Definition insert_pattern (p : str) (t : trie) : res trie :=
  do points <- pattern_points p; Ok (insert (pattern_chars p) points t).
Fixpoint insert_patterns (ps : list str) (t : trie) : res trie :=
  match ps with
  | [] => Ok t
  | p :: r => do t' <- insert_pattern p t; insert_patterns r t'
  end.

(** 32-37: the exceptions: a dict from words to points (a later entry for the
    same word wins: the model looks from the end) *)
Definition is_dash (c : char) : bool := (c =? 45)%N.
Definition exc_word (ex : str) : str := filter (fun c => negb (is_dash c)) ex.
Definition str_eqb (a b : str) : bool := if list_eq_dec N.eq_dec a b then true else false.
Definition exc_points (ex : str) : list nat :=
  0 :: map (fun h => if str_eqb h [45%N] then 1 else 0) (re_split is_az ex).
Record hyph := mkHyph { h_tree : trie; h_exceptions : list (str * list nat) }.
Definition hyph_new (patterns exceptions : list str) : res hyph :=
  do t <- insert_patterns patterns t_empty;
  Ok (mkHyph t (rev (map (fun ex => (exc_word ex, exc_points ex)) exceptions))).
Definition exception (h : hyph) (w : str) : option (list nat) :=
  option_map snd (find (fun e => str_eqb w (fst e)) (h_exceptions h)).

(** [points[i] = max(points[i], v)]; IndexError when out of range *)
Fixpoint raise_at (points : list nat) (i v : nat) : res (list nat) :=
  match points, i with
  | [], _ => Err EIndex
  | x :: r, O => Ok (Nat.max x v :: r)
  | x :: r, S i => do r' <- raise_at r i v; Ok (x :: r')
  end.
(** 75-76 *)
Fixpoint raise_all (points : list nat) (i : nat) (p : list nat) : res (list nat) :=
  match p with
  | [] => Ok points
  | v :: r => do points' <- raise_at points i v; raise_all points' (S i) r
  end.
(** 70-78: the walk down the tree along [work[i:]] *)
Fixpoint walk (t : trie) (s : str) (i : nat) (points : list nat) : res (list nat) :=
  match s with
  | [] => Ok points
  | c :: r =>
      match child c (t_children t) with
      | None => Ok points
      | Some t' =>
          do points' <- match t_points t' with
                        | Some p => raise_all points i p
                        | None => Ok points
                        end;
          walk t' r i points'
      end
  end.
(** 68-78: [for i in range(len(work))] *)
Fixpoint walks (t : trie) (s : str) (i : nat) (points : list nat) : res (list nat) :=
  match s with
  | [] => Ok points
  | _ :: r => do points' <- walk t s i points; walks t r (S i) points'
  end.
Fixpoint zero_at (points : list nat) (i : nat) : list nat :=
  match points, i with
  | [], _ => []
  | _ :: r, O => 0 :: r
  | x :: r, S i => x :: zero_at r i
  end.
(** 79-80: [points[1] = points[2] = points[-2] = points[-3] = 0]; there are at
    least three points *)
Definition zero_ends (points : list nat) : list nat :=
  let n := List.length points in
  zero_at (zero_at (zero_at (zero_at points 1) 2) (n - 2)) (n - 3).
(** 82-88: [pieces] *)
Fixpoint pieces (cur : str) (w : str) (points : list nat) : list str :=
  match w, points with
  | c :: w', p :: points' =>
      if Nat.odd p then (cur ++ [c]) :: pieces [] w' points' else pieces (cur ++ [c]) w' points'
  | _, _ => [cur]
  end.
(** 55-88: [hyphenate_word]; [lower] is [str.lower] *)
Definition hyphenate_word (lower : str -> str) (h : hyph) (w : str) : res (list str) :=
  if List.length w <=? 4 then Ok [w]
  else
    do points <- match exception h (lower w) with
                 | Some p => Ok p
                 | None =>
                     let work := 46%N :: lower w ++ [46%N] in
                     do p <- walks (h_tree h) work 0 (repeat 0 (S (List.length work)));
                     Ok (zero_ends p)
                 end;
    Ok (pieces [] w (skipn 2 points)).

(** ** typeset/hyphens.py *)
(** 11-12: [never_hyphenate] *)
Definition never_hyphenate (w : str) : list str := [w].
(** [txt[a:b]] for non-negative bounds *)
Definition py_slice (s : str) (a b : nat) : str := firstn (b - a) (skipn a s).
(** 48-56: [_pyphenate], given the positions: slices between consecutive members
    of [0, *positions, None] *)
Fixpoint cut_at (s : str) (a : nat) (pos : list nat) : list str :=
  match pos with
  | [] => [skipn a s]
  | b :: r => py_slice s a b :: cut_at s b r
  end.
Definition pyphenate (pos : list nat) (s : str) : list str :=
  match pos with [] => [s] | _ => cut_at s 0 pos end.
