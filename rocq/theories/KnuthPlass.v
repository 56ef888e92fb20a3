(** * KnuthPlass: optimal line breaking.  /repo/src/pdfje/typeset/knuth_plass.py *)
From Coq Require Import QArith.
From Verif Require Import Base Num.
Open Scope nat_scope.

Section KP.
Context {NUM : Num}.

(** knuth_plass.py 32-41: [Box] *)
Record kbox := mkKBox {
  kb_measure : num; kb_stretch : num; kb_shrink : num; kb_incl_space : num;
  kb_incl_hyphen : num; kb_hyphenated : bool; kb_no_break : bool }.

(** A tolerance: [params.tolerance * scale] may be infinite (or nan) *)
Inductive tol := TFin (x : num) | TInf | TNegInf | TNan.
(** [r <= tol] *)
Definition within (r : num) (t : tol) : bool :=
  match t with TFin x => nleb r x | TInf => true | TNegInf | TNan => false end.

(** 273-290: [_BreakNode] and [_ROOT].  [Root] is [_ROOT]; the projections give
    its fields. *)
Inductive node :=
| Root
| Node (pos line : nat) (ratio : num) (fitness : nat) (demerits measure stretch shrink : num)
       (hyphenated : bool) (prev : node).
Definition n_pos (n : node) := match n with Root => 0 | Node p _ _ _ _ _ _ _ _ _ => p end.
Definition n_line (n : node) := match n with Root => 0 | Node _ l _ _ _ _ _ _ _ _ => l end.
Definition n_fitness (n : node) := match n with Root => 1 | Node _ _ _ f _ _ _ _ _ _ => f end.
Definition n_demerits (n : node) := match n with Root => n0 | Node _ _ _ _ d _ _ _ _ _ => d end.
Definition n_measure (n : node) := match n with Root => n0 | Node _ _ _ _ _ m _ _ _ _ => m end.
Definition n_stretch (n : node) := match n with Root => n0 | Node _ _ _ _ _ _ s _ _ _ => s end.
Definition n_shrink (n : node) := match n with Root => n0 | Node _ _ _ _ _ _ _ s _ _ => s end.
Definition n_hyphenated (n : node) := match n with Root => false | Node _ _ _ _ _ _ _ _ h _ => h end.

(** 27: [BIG] *)
Definition BIG : num := nZ 100.
(** 212-225: [ratio_justified]; the second division is not protected *)
Definition ratio_justified (measure stretch shrink : num) (b : kbox) (space : num) : res num :=
  let length := nsub (kb_incl_hyphen b) measure in
  match pdiv (nsub space length)
             (if nltb length space then nsub (kb_stretch b) stretch else nsub (kb_shrink b) shrink) with
  | Ok r => Ok r
  | Err _ => if neqb length space then Ok n0
             else do q <- pdiv length space; Ok (nadd BIG q)
  end.
(** 228-241: [ratio_ragged] *)
Definition ratio_ragged (measure stretch shrink : num) (b : kbox) (space : num) : res num :=
  let leftover := nadd (nsub space (kb_incl_hyphen b)) measure in
  if nleb n0 leftover then pdiv leftover (kb_stretch b) else Ok (nZ (-2)).
Definition ratio_fn (ragged : bool) := if ragged then ratio_ragged else ratio_justified.
(** 205-206: [_fitness] *)
Definition fitness (r : num) : nat :=
  if nltb r (nQ (-1 # 2)) then 0 else if nleb r (nQ (1 # 2)) then 1 else if nleb r n1 then 2 else 3.
(** [abs(a - b) > 1] on fitness classes *)
Definition contrast (a b : nat) : bool := (1 <? a - b) || (1 <? b - a).
(** 244-245: [_main_demerit] *)
Definition main_demerit (penalty r : num) : num :=
  npow (nadd (nadd n1 (nmul (nZ 100) (npow (nabs r) 3))) penalty) 2.
(** 133-141: the demerits of a line that ends in a break, plus those before it *)
Definition line_demerits (hp chp fdp r : num) (hyph : bool) (prev : node) : num :=
  nadd (nadd (nadd (main_demerit (nmul hp (nbool hyph)) r)
                   (nmul (nmul chp (nbool hyph)) (nbool (n_hyphenated prev))))
             (nmul (nbool (contrast (fitness r) (n_fitness prev))) fdp))
       (n_demerits prev).

(** 293-321: [_BreakNetwork]: a dict from (line, pos, fitness) in insertion order *)
Definition same_key (a b : node) : bool :=
  (n_line a =? n_line b) && (n_pos a =? n_pos b) && (n_fitness a =? n_fitness b).
(** 307-315: [add] *)
Fixpoint net_add (g : list node) (n : node) : list node :=
  match g with
  | [] => [n]
  | x :: r => if same_key x n then (if nltb (n_demerits n) (n_demerits x) then n :: r else g)
              else x :: net_add r n
  end.
(** 320-321: [remove] ([pop]: the key is always present) *)
Fixpoint net_remove (g : list node) (n : node) : list node :=
  match g with
  | [] => []
  | x :: r => if same_key x n then r else x :: net_remove r n
  end.

Record params := mkParams { p_hyphen : num; p_consecutive : num; p_fitness : num }.
Section Fit.
Variables (width : nat -> num) (t : tol) (P : params) (ragged : bool).
Definition node_ratio (n : node) (b : kbox) : res num :=
  ratio_fn ragged (n_measure n) (n_stretch n) (n_shrink n) b (width (n_line n)).
Definition next_node (pos : nat) (b bnext : kbox) (n : node) (r : num) : node :=
  Node pos (S (n_line n)) r (fitness r)
       (line_demerits (p_hyphen P) (p_consecutive P) (p_fitness P) r (kb_hyphenated b) n)
       (kb_incl_space b) (kb_stretch bnext) (kb_shrink bnext) (kb_hyphenated b) n.
(** 116-149: the loop over a snapshot of the nodes *)
Fixpoint visit (nodes : list node) (pos : nat) (b bnext : kbox) (g : list node) : res (list node) :=
  match nodes with
  | [] => Ok g
  | n :: ns =>
      do r <- node_ratio n b;
      visit ns pos b bnext
            (if nltb r (nZ (-1)) then net_remove g n
             else if within r t then net_add g (next_node pos b bnext n r) else g)
  end.
(** 108-149: the loop over [pairwise(bs)]: [b] is the box before position [pos] *)
Fixpoint scan (b : kbox) (rest : list kbox) (pos : nat) (g : list node) : res (list node * kbox * nat) :=
  match rest with
  | [] => Ok (g, b, pos)
  | bnext :: rest' =>
      if kb_no_break b then scan bnext rest' (S pos) g
      else match g with
           | [] => Err ENoFeasible
           | _ => do g' <- visit g pos b bnext g; scan bnext rest' (S pos) g'
           end
  end.
(** 248-254: [_EndNode] *)
Record endnode := mkEnd { e_pos : nat; e_ratio : num; e_demerits : num; e_measure : num; e_prev : node }.
(** 156-161: [Break] *)
Record break := mkBreak { br_pos : nat; br_adjust : num; br_demerits : num; br_width : num }.
(** 168-202: the options of [_optimal_end] *)
Fixpoint end_options (nodes : list node) (b : kbox) (pos : nat) : res (list endnode) :=
  match nodes with
  | [] => Ok []
  | n :: ns =>
      do q <- node_ratio n b;
      let r := nmin q n0 in
      do rest <- end_options ns b pos;
      Ok (if nltb (nZ (-1)) r then
            mkEnd pos r
                  (nadd (nadd (main_demerit n0 r)
                              (nmul (nbool (contrast (fitness r) (n_fitness n))) (p_fitness P)))
                        (n_demerits n))
                  (kb_incl_space b) n :: rest
          else rest)
  end.
(** [min(options, key=demerits)]: the first of the least ones *)
Fixpoint least (e : endnode) (l : list endnode) : endnode :=
  match l with
  | [] => e
  | x :: r => least (if nltb (e_demerits x) (e_demerits e) then x else e) r
  end.
(** 256-270: [unroll] (in reverse order, then reversed) *)
Fixpoint unroll_node (n : node) : list break :=
  match n with
  | Root => []
  | Node pos _ r _ d m _ _ _ p =>
      unroll_node p ++ [mkBreak pos r (nsub d (n_demerits p)) (nsub m (n_measure p))]
  end.
Definition unroll (e : endnode) : list break :=
  unroll_node (e_prev e)
  ++ [mkBreak (e_pos e) (e_ratio e) (nsub (e_demerits e) (n_demerits (e_prev e)))
              (nsub (e_measure e) (n_measure (e_prev e)))].
(** 44-153: [optimum_fit] *)
Definition optimum_fit (bs : list kbox) : res (list break) :=
  match bs with
  | [] => Ok []
  | b :: rest =>
      do x <- scan b rest 1 [Root];
      let '(g, last, pos) := x in
      do opts <- end_options g last pos;
      match opts with
      | [] => Err ENoFeasible
      | e :: l => Ok (unroll (least e l))
      end
  end.
End Fit.
End KP.
