(** * State: text state, commands, passages.  /repo/src/pdfje/typeset/state.py *)
From Verif Require Import Base Num Fonts.
Open Scope nat_scope.

Section State.
Context {NUM : Num}.

(** common.py 257-318: [RGB] (a frozen triple; the assertion of [__post_init__]
    is modelled in Common.v) *)
Record rgb := mkRGB { red : num; green : num; blue : num }.
Definition rgb_eqb (a b : rgb) : bool :=
  neqb (red a) (red b) && neqb (green a) (green b) && neqb (blue a) (blue b).

(** state.py 116-136: [State]; hyphenation functions are numbered *)
Record state := mkState {
  st_font : font; st_size : num; st_color : rgb; st_spacing : num; st_hyphens : N }.
(** state.py 132-133: the cached [lead] *)
Definition lead (s : state) : num := nmul (st_size s) (st_spacing s).
(** state.py 135-136: [kerns_with] *)
Definition kerns_with (a b : state) : bool :=
  font_eqb (st_font a) (st_font b) && neqb (st_size a) (st_size b).

(** state.py 24-113: the commands *)
Inductive command :=
| NoOp
| SetFont (f : font) (size : num)
| SetLineSpacing (v : num)
| SetColor (c : rgb)
| SetHyphens (h : N)
| Chain (items : list command).

(** the [apply] methods: state.py 33-34, 47-50, 71-72, 82-83, 96-97, 107-108 *)
Fixpoint apply (c : command) (s : state) : state :=
  match c with
  | NoOp => s
  | SetFont f z => mkState f z (st_color s) (st_spacing s) (st_hyphens s)
  | SetLineSpacing v => mkState (st_font s) (st_size s) (st_color s) v (st_hyphens s)
  | SetColor c => mkState (st_font s) (st_size s) c (st_spacing s) (st_hyphens s)
  | SetHyphens h => mkState (st_font s) (st_size s) (st_color s) (st_spacing s) h
  | Chain l => fold_left (fun s c => apply c s) l s
  end.

(** [type(i)] *)
Definition ctag (c : command) : nat :=
  match c with
  | NoOp => 0 | SetFont _ _ => 1 | SetLineSpacing _ => 2 | SetColor _ => 3
  | SetHyphens _ => 4 | Chain _ => 5
  end.
(** [d[type(c)] = c]: a new key goes to the end, an old one keeps its place *)
Fixpoint dict_set (d : list command) (c : command) : list command :=
  match d with
  | [] => [c]
  | x :: r => if ctag x =? ctag c then c :: r else x :: dict_set r c
  end.
(** state.py 55-63: [Chain.squash] *)
Definition squash (l : list command) : command :=
  match fold_left dict_set l [] with
  | [] => NoOp
  | [c] => c
  | d => Chain d
  end.

(** state.py 165-167: [Passage] *)
Definition passage : Type := command * str.

(** state.py 21: the regex [\r\n|\n], searched from the current position: the
    text before the first newline and the text after it *)
Fixpoint split_newline (t : str) : option (str * str) :=
  match t with
  | [] => None
  | c :: r =>
      if (c =? 10)%N then Some ([], r)
      else match r with
           | d :: r' => if ((c =? 13) && (d =? 10))%N then Some ([], r')
                        else option_map (fun p => (c :: fst p, snd p)) (split_newline r)
           | [] => None
           end
  end.

(** state.py 140-162: [splitlines].  The generator [_group] works on the current
    passage [cmd, txt[pos:]] ([cont] iff pos > 0) and the iterator of the
    remaining ones; each group is a list here.  (Consumption: the caller resumes
    the outer generator only after the group was consumed; see [into_words] for
    the case in which a group is abandoned.)  [fuel] bounds the number of steps. *)
Fixpoint group (fuel : nat) (cmd : command) (txt : str) (cont : bool) (it : list passage)
  : list passage * option (command * str * list passage) :=
  match fuel with
  | O => ([], None)
  | S fuel' =>
      let c := if cont then NoOp else cmd in
      match split_newline txt with
      | None =>
          match it with
          | [] => ([(c, txt)], None)
          | (cmd', txt') :: it' =>
              let (g, nxt) := group fuel' cmd' txt' false it' in ((c, txt) :: g, nxt)
          end
      | Some (before, after) => ([(c, before)], Some (cmd, after, it))
      end
  end.
Fixpoint groups (fuel : nat) (cmd : command) (txt : str) (cont : bool) (it : list passage)
  : list (list passage) :=
  match fuel with
  | O => []
  | S fuel' =>
      let (g, nxt) := group (S (List.length it)) cmd txt cont it in
      g :: match nxt with
           | None => []
           | Some (cmd', txt', it') => groups fuel' cmd' txt' true it'
           end
  end.
Definition text_size (ps : list passage) : nat :=
  list_sum (map (fun p => List.length (snd p)) ps).
Definition splitlines (ps : list passage) : list (list passage) :=
  match ps with
  | [] => []
  | (cmd, txt) :: it => groups (S (text_size ps)) cmd txt false it
  end.

(** state.py 170-180: [max_lead] *)
Fixpoint max_lead_from (ps : list passage) (s : state) (acc : num) : num * state :=
  match ps with
  | [] => (acc, s)
  | (cmd, txt) :: r =>
      let s' := apply cmd s in
      max_lead_from r s' (match txt with [] => acc | _ => nmax acc (lead s') end)
  end.
Definition max_lead (ps : list passage) (s : state) : num :=
  let (l, s') := max_lead_from ps s n0 in
  if ntruthy l then l else lead s'.
End State.
