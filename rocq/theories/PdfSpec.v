(** * PdfSpec: an independent reader for the PDF object syntax

    Specification only; written from PDF 32000-1:2008 7.2-7.5, not from the code
    of pdfje.  Used to state that what pdfje writes is read back unchanged. *)
From Verif Require Import Base.
From Coq Require Export QArith.
From Coq Require Import String.
Local Open Scope list_scope.
Open Scope nat_scope.

(** 7.2.2: white space and delimiters *)
Definition is_ws (c : N) : bool :=
  match c with 0 | 9 | 10 | 12 | 13 | 32 => true | _ => false end%N.
Definition is_delim (c : N) : bool :=     (* ( ) < > [ ] { } / % *)
  match c with 40 | 41 | 60 | 62 | 91 | 93 | 123 | 125 | 47 | 37 => true | _ => false end%N.
Definition is_regular (c : N) : bool := negb (is_ws c || is_delim c).

(** Skip white space and comments. *)
Fixpoint skip (comment : bool) (l : bytes) : bytes :=
  match l with
  | [] => []
  | c :: r =>
      if comment then skip (negb ((c =? 10) || (c =? 13))%N) r
      else if is_ws c then skip false r
      else if (c =? 37)%N then skip true r
      else l
  end.

(** Longest run of regular characters. *)
Fixpoint take_regular (l : bytes) : bytes * bytes :=
  match l with
  | [] => ([], [])
  | c :: r => if is_regular c then let (t, r') := take_regular r in (c :: t, r') else ([], l)
  end.

Definition hexval (c : N) : option N :=
  if ((48 <=? c) && (c <=? 57))%N then Some (c - 48)%N
  else if ((65 <=? c) && (c <=? 70))%N then Some (c - 55)%N
  else if ((97 <=? c) && (c <=? 102))%N then Some (c - 87)%N
  else None.

(** 7.3.5: names; #xx escapes *)
Fixpoint decode_name (l : bytes) : option bytes :=
  match l with
  | [] => Some []
  | c :: r =>
      if (c =? 35)%N then
        match r with
        | a :: b :: r' =>
            match hexval a, hexval b, decode_name r' with
            | Some x, Some y, Some n => Some ((16 * x + y)%N :: n)
            | _, _, _ => None
            end
        | _ => None
        end
      else option_map (cons c) (decode_name r)
  end.

(** 7.3.4.2: literal strings. [depth] counts open inner parentheses. *)
Definition is_octal (c : N) : bool := ((48 <=? c) && (c <=? 55))%N.
Fixpoint read_lit (depth : nat) (l : bytes) : option (bytes * bytes) :=
  let emit x o := match o with Some (s, r) => Some (x :: s, r) | None => None end in
  match l with
  | [] => None
  | 41%N :: r =>
      match depth with
      | O => Some ([], r)
      | S d => emit 41%N (read_lit d r)
      end
  | 40%N :: r => emit 40%N (read_lit (S depth) r)
  | 92%N :: r =>
      match r with
      | [] => None
      | 110%N :: r' => emit 10%N (read_lit depth r')
      | 114%N :: r' => emit 13%N (read_lit depth r')
      | 116%N :: r' => emit 9%N (read_lit depth r')
      | 98%N :: r' => emit 8%N (read_lit depth r')
      | 102%N :: r' => emit 12%N (read_lit depth r')
      | 13%N :: 10%N :: r' => read_lit depth r'
      | 13%N :: r' => read_lit depth r'
      | 10%N :: r' => read_lit depth r'
      | a :: r' =>
          if is_octal a then
            match r' with
            | b :: r2 =>
                if is_octal b then
                  match r2 with
                  | c :: r3 =>
                      if is_octal c
                      then emit ((64 * (a - 48) + 8 * (b - 48) + (c - 48)) mod 256)%N
                                (read_lit depth r3)
                      else emit (8 * (a - 48) + (b - 48))%N (read_lit depth r2)
                  | [] => None
                  end
                else emit (a - 48)%N (read_lit depth r')
            | [] => None
            end
          else emit a (read_lit depth r')
      end
  | 13%N :: 10%N :: r => emit 10%N (read_lit depth r)
  | 13%N :: r => emit 10%N (read_lit depth r)
  | c :: r => emit c (read_lit depth r)
  end.

(** 7.3.4.3: hexadecimal strings; [hi] is a pending first digit *)
Fixpoint read_hex (hi : option N) (l : bytes) : option (bytes * bytes) :=
  match l with
  | [] => None
  | c :: r =>
      if (c =? 62)%N then
        match hi with None => Some ([], r) | Some h => Some ([(16 * h)%N], r) end
      else if is_ws c then read_hex hi r
      else match hexval c with
           | None => None
           | Some v =>
               match hi with
               | None => read_hex (Some v) r
               | Some h => match read_hex None r with
                           | Some (s, r') => Some ((16 * h + v)%N :: s, r')
                           | None => None
                           end
               end
           end
  end.

(** 7.3.3: numbers.  An integer is [+-]?digits; a real additionally has one point
    and at least one digit.  No exponents. *)
Definition all_digits (l : bytes) : bool := forallb is_digit l.
Definition unsign (l : bytes) : bool * bytes :=
  match l with
  | 45%N :: r => (true, r)
  | 43%N :: r => (false, r)
  | _ => (false, l)
  end.
Definition read_int (t : bytes) : option Z :=
  let (neg, d) := unsign t in
  match d with
  | [] => None
  | _ => if all_digits d
         then Some (if neg then - Z.of_N (digits_val d) else Z.of_N (digits_val d))%Z
         else None
  end.
Fixpoint split_dot (l : bytes) : option (bytes * bytes) :=
  match l with
  | [] => None
  | c :: r => if (c =? 46)%N then Some ([], r)
              else match split_dot r with Some (a, b) => Some (c :: a, b) | None => None end
  end.
Definition read_real (t : bytes) : option Q :=
  let (neg, d) := unsign t in
  match split_dot d with
  | None => None
  | Some (ip, fp) =>
      match ip ++ fp with
      | [] => None
      | ds => if all_digits ds
              then let v := (inject_Z (Z.of_N (digits_val ds))
                             / inject_Z (10 ^ Z.of_nat (List.length fp)))%Q in
                   Some (if neg then - v else v)%Q
              else None
      end
  end.
(** The value of a legal number token. *)
Definition number_value (t : bytes) : option Q :=
  match read_int t with
  | Some z => Some (inject_Z z)
  | None => read_real t
  end.

(** 7.3: objects *)
Inductive pobj :=
| PNull
| PBool (b : bool)
| PInt (z : Z)
| PReal (q : Q)
| PStr (s : bytes)
| PName (n : bytes)
| PArr (l : list pobj)
| PDict (d : list (bytes * pobj))
| PRef (num gen : N).

(** After an integer: is it the beginning of an indirect reference "n g R"? *)
Definition read_ref_tail (l : bytes) : option (N * bytes) :=
  match take_regular (skip false l) with
  | ([], _) => None
  | (g, r) =>
      if all_digits g then
        match take_regular (skip false r) with
        | ([82%N], r') => Some (digits_val g, r')
        | _ => None
        end
      else None
  end.

Fixpoint read_obj (n : nat) (l : bytes) {struct n} : option (pobj * bytes) :=
  match n with
  | O => None
  | S n =>
      match skip false l with
      | [] => None
      | c :: r =>
          if (c =? 47)%N then                                    (* /name *)
            let (t, r') := take_regular r in
            option_map (fun nm => (PName nm, r')) (decode_name t)
          else if (c =? 40)%N then                               (* (string) *)
            option_map (fun '(s, r') => (PStr s, r')) (read_lit 0 r)
          else if (c =? 60)%N then
            if (hd 0%N r =? 60)%N
            then option_map (fun '(d, r') => (PDict d, r')) (read_dict n (tl r))   (* << *)
            else option_map (fun '(s, r') => (PStr s, r')) (read_hex None r)
          else if (c =? 91)%N then                               (* [array] *)
            option_map (fun '(d, r') => (PArr d, r')) (read_arr n r)
          else
            let (t, r) := take_regular (c :: r) in
            match read_int t with
            | Some z =>
                match (if all_digits t then read_ref_tail r else None) with
                | Some (g, r') => Some (PRef (digits_val t) g, r')
                | None => Some (PInt z, r)
                end
            | None =>
                match read_real t with
                | Some q => Some (PReal q, r)
                | None =>
                    if list_eq_dec N.eq_dec t (bs "true") then Some (PBool true, r)
                    else if list_eq_dec N.eq_dec t (bs "false") then Some (PBool false, r)
                    else if list_eq_dec N.eq_dec t (bs "null") then Some (PNull, r)
                    else None
                end
            end
      end
  end
with read_arr (n : nat) (l : bytes) {struct n} : option (list pobj * bytes) :=
  match n with
  | O => None
  | S n =>
      match skip false l with
      | [] => None
      | c :: r =>
          if (c =? 93)%N then Some ([], r)
          else match read_obj n (c :: r) with
               | None => None
               | Some (x, r) => option_map (fun '(xs, r') => (x :: xs, r')) (read_arr n r)
               end
      end
  end
with read_dict (n : nat) (l : bytes) {struct n} : option (list (bytes * pobj) * bytes) :=
  match n with
  | O => None
  | S n =>
      match skip false l with
      | [] => None
      | c :: r =>
          if (c =? 62)%N then
            if (hd 0%N r =? 62)%N then Some ([], tl r) else None
          else if (c =? 47)%N then
            let (t, r1) := take_regular r in
            match decode_name t with
            | None => None
            | Some k =>
                match read_obj n r1 with
                | None => None
                | Some (v, r2) => option_map (fun '(d, r') => ((k, v) :: d, r')) (read_dict n r2)
                end
            end
          else None
      end
  end.

(** The reader with enough fuel for any input. *)
Definition read (l : bytes) : option (pobj * bytes) := read_obj (S (List.length l)) l.
Definition lookup (k : bytes) (d : list (bytes * pobj)) : option pobj :=
  match find (fun kv => if list_eq_dec N.eq_dec (fst kv) k then true else false) d with
  | Some kv => Some (snd kv)
  | None => None
  end.

(** 7.3.8, 7.3.10: indirect objects: "n g obj" object [stream] "endobj" *)
Definition strip_prefix (p l : bytes) : option bytes :=
  if list_eq_dec N.eq_dec (firstn (List.length p) l) p then Some (skipn (List.length p) l) else None.
Definition keyword (k : string) (l : bytes) : option bytes := strip_prefix (bs k) (skip false l).
Definition read_nat_tok (l : bytes) : option (N * bytes) :=
  match take_regular (skip false l) with
  | ([], _) => None
  | (t, r) => if all_digits t then Some (digits_val t, r) else None
  end.
Definition read_indirect (l : bytes) : option (N * N * pobj * option bytes) :=
  match read_nat_tok l with
  | None => None
  | Some (num, r1) =>
  match read_nat_tok r1 with
  | None => None
  | Some (gen, r2) =>
  match keyword "obj" r2 with
  | None => None
  | Some r3 =>
  match read r3 with
  | None => None
  | Some (o, r4) =>
  match keyword "endobj" r4 with
  | Some _ => Some (num, gen, o, None)
  | None =>
      match o, keyword "stream" r4 with
      | PDict d, Some (10%N :: r5) =>
          match lookup (bs "Length") d with
          | Some (PInt len) =>
              let n := Z.to_nat len in
              if (Z.of_nat (List.length r5) <? len)%Z then None
              else match keyword "endstream" (skipn n r5) with
                   | None => None
                   | Some r6 => match keyword "endobj" r6 with
                                | Some _ => Some (num, gen, o, Some (firstn n r5))
                                | None => None
                                end
                   end
          | _ => None
          end
      | _, _ => None
      end
  end end end end end.

(** 7.5.4, 7.5.5: cross-reference table, trailer, startxref *)
Fixpoint find_last (p l : bytes) : option nat :=
  match l with
  | [] => None
  | _ :: r => match find_last p r with
              | Some i => Some (S i)
              | None => match strip_prefix p l with Some _ => Some 0 | None => None end
              end
  end.
Inductive xentry := XFree (next gen : N) | XUsed (off gen : N).
(** One entry: exactly 20 bytes "nnnnnnnnnn ggggg n \n" *)
Definition read_xentry (l : bytes) : option (xentry * bytes) :=
  let o := firstn 10 l in
  let g := firstn 5 (skipn 11 l) in
  match skipn 10 l, skipn 16 l with
  | 32%N :: _, 32%N :: k :: 32%N :: 10%N :: r =>
      if (all_digits o && all_digits g)%bool then
        if (k =? 110)%N then Some (XUsed (digits_val o) (digits_val g), r)
        else if (k =? 102)%N then Some (XFree (digits_val o) (digits_val g), r)
        else None
      else None
  | _, _ => None
  end.
Fixpoint read_xentries (n : nat) (l : bytes) : option (list xentry * bytes) :=
  match n with
  | O => Some ([], l)
  | S n => match read_xentry l with
           | None => None
           | Some (e, r) => option_map (fun '(es, r') => (e :: es, r')) (read_xentries n r)
           end
  end.
(** Table of one subsection starting at object 0. *)
Definition read_xref (l : bytes) : option (list xentry * list (bytes * pobj)) :=
  match strip_prefix (bs "xref" ++ [10%N]) l with
  | None => None
  | Some r1 =>
  match read_nat_tok r1 with
  | Some (0%N, r2) =>
      match read_nat_tok r2 with
      | Some (n, 10%N :: r3) =>
          match read_xentries (N.to_nat n) r3 with
          | Some (es, r4) =>
              match keyword "trailer" r4 with
              | Some r5 => match read r5 with
                           | Some (PDict d, _) => Some (es, d)
                           | _ => None
                           end
              | None => None
              end
          | None => None
          end
      | _ => None
      end
  | _ => None
  end
  end.
(** A whole file: header, startxref, table, then each used object at its offset.
    Returns the objects (id, value, raw stream data) in id order and the trailer. *)
Definition read_startxref (f : bytes) : option N :=
  match find_last (bs "startxref") f with
  | None => None
  | Some i => match read_nat_tok (skipn (i + 9) f) with
              | Some (o, r) => match strip_prefix (10%N :: bs "%%EOF") r with
                               | Some _ => Some o
                               | None => None
                               end
              | None => None
              end
  end.
Definition at_offset (o : N) (f : bytes) : bytes := skipn (N.to_nat o) f.
Fixpoint read_objects (f : bytes) (i : N) (es : list xentry)
  : option (list (N * pobj * option bytes)) :=
  match es with
  | [] => Some []
  | XFree _ _ :: r => read_objects f (i + 1) r
  | XUsed o g :: r =>
      match read_indirect (at_offset o f) with
      | Some (num, gen, v, s) =>
          if ((num =? i) && (gen =? g))%N
          then option_map (cons (num, v, s)) (read_objects f (i + 1) r)
          else None
      | None => None
      end
  end.
Definition read_file (f : bytes)
  : option (list (N * pobj * option bytes) * list (bytes * pobj)) :=
  match read_startxref f with
  | None => None
  | Some x =>
  match read_xref (at_offset x f) with
  | None => None
  | Some (es, tr) => option_map (fun os => (os, tr)) (read_objects f 0 es)
  end end.
