(** * ContentSpec: how a PDF reader reads a content stream.

    PDF 32000-1, 7.8.2: a content stream is a sequence of operators, each preceded by its
    operands; operands are direct objects (no references); tokens as in 7.2.  Written from
    the standard, not from the code. *)
From Verif Require Import Base Gfmt PdfSpec.
Open Scope nat_scope.

(** An operator and its operands.  Numbers are given by their value: [PReal]. *)
Definition instr : Type := bytes * list pobj.
Definition num_start (c : N) : bool := is_digit c || ((c =? 43) || (c =? 45) || (c =? 46))%N.
(** [operands]: those read since the last operator *)
Fixpoint read_instrs (n : nat) (l : bytes) (operands : list pobj) : option (list instr) :=
  match n with
  | O => None
  | S n =>
      match skip false l with
      | [] => match operands with [] => Some [] | _ => None end
      | c :: r =>
          if num_start c then
            let (t, r') := take_regular (c :: r) in
            match number_value t with
            | Some v => read_instrs n r' (operands ++ [PReal v])
            | None => None
            end
          else if is_delim c then
            match read_obj n (c :: r) with
            | Some (o, r') => read_instrs n r' (operands ++ [o])
            | None => None
            end
          else
            let (t, r') := take_regular (c :: r) in
            option_map (cons (t, operands)) (read_instrs n r' [])
      end
  end.
(** The operators of a content stream. *)
Definition read_content (l : bytes) : option (list instr) := read_instrs (S (List.length l)) l [].

(** A printed number: six significant digits. *)
Definition near (v q : Q) : Prop := (Qabs (v - q) <= (5 # 1000000) * Qabs q)%Q.
