(** * Atoms: the serializers of /repo/src/pdfje/atoms.py *)
From Verif Require Import Base Gfmt.
From Coq Require Import String.
Local Open Scope list_scope.

(** atoms.py 21: [_HEADER] *)
Definition header : bytes :=
  bs "%PDF-1.7" ++ [10; 37; 128; 128; 128; 128]%N ++ bs " generated by pdfje" ++ [10%N].

(** atoms.py 57-68: [_sanitize_name_char] *)
Definition sanitize_name_char (c : N) : bytes :=
  if (c =? 35)%N then bs "#23"
  else if ((33 <=? c) && (c <=? 126))%N then [c]
  else if (c =? 32)%N then bs "#20"
  else [].
(** atoms.py 71-72: [sanitize_name] *)
Definition sanitize_name (s : bytes) : bytes := flat_map sanitize_name_char s.

(** atoms.py 236-245 [_STRING_ESCAPES], 248-255 [_escape]: a regex substitution
    whose alternatives are the eight single bytes below. *)
Definition escape_char (c : N) : bytes :=
  match c with
  | 92%N => [92; 92]%N            (* \  *)
  | 10%N => [92; 110]%N           (* \n *)
  | 13%N => [92; 114]%N           (* \r *)
  | 9%N => [92; 116]%N            (* \t *)
  | 8%N => [92; 98]%N             (* \b *)
  | 12%N => [92; 102]%N           (* \f *)
  | 40%N => [92; 40]%N            (* ( *)
  | 41%N => [92; 41]%N            (* ) *)
  | _ => [c]
  end.
Definition escape (s : bytes) : bytes := flat_map escape_char s.

(** binascii.hexlify: two lower-case hex digits per byte *)
Definition hexlify (s : bytes) : bytes :=
  flat_map (fun c => [hexdigitL (c / 16); hexdigitL (c mod 16)]%N) s.

(** The [Atom] subclasses (atoms.py 30-174). [Bool] (41-46) is left out: its
    [write] only raises and nothing creates one.  A [Real] holds a finite float
    as the rational it denotes, or [None] for nan/inf.  A [Stream]'s content
    (an iterable of chunks) is the list of its chunks. *)
Inductive atom :=
| AName (v : bytes)
| AInt (v : Z)
| AReal (v : option Q)
| ALit (v : bytes)
| AHex (v : bytes)
| AArr (items : list atom)
| ADict (content : list (bytes * atom))
| AStream (content : list bytes) (meta : list (bytes * atom))
| ARef (target : N).

Section Write.
(** [zlib.compress] *)
Variable compress : bytes -> bytes.

(** atoms.py 137-145: [_write_dict], given the already written values *)
Definition write_dict_chunks (d : list (bytes * bytes)) : bytes :=
  bs "<<" ++ [10%N] ++
  flat_map (fun kv => 47%N :: fst kv ++ [32%N] ++ snd kv ++ [10%N]) d ++ bs ">>".

(** The [write] methods, joined.  atoms.py 53-54 Name, 79-80 Int, 87-89 Real
    (asserts finiteness), 102-103 LiteralStr, 110-111 HexString, 118-123 Array,
    133-134 Dictionary, 153-166 Stream, 173-174 Ref. *)
Fixpoint write_atom (a : atom) : res bytes :=
  match a with
  | AName v => Ok (47%N :: v)
  | AInt z => Ok (decZ z)
  | AReal (Some q) => Ok (fmt_g q)
  | AReal None => Err EAssertion
  | ALit v => Ok (40%N :: escape v ++ [41%N])
  | AHex v => Ok (60%N :: hexlify v ++ [62%N])
  | AArr items =>
      do ws <- (fix go (l : list atom) : res (list bytes) :=
                  match l with
                  | [] => Ok []
                  | x :: r => do w <- write_atom x; do ws <- go r; Ok (w :: ws)
                  end) items;
      Ok (91%N :: flat_map (fun w => w ++ [32%N]) ws ++ [93%N])
  | ADict content =>
      do ws <- (fix go (l : list (bytes * atom)) : res (list (bytes * bytes)) :=
                  match l with
                  | [] => Ok []
                  | (k, x) :: r => do w <- write_atom x; do ws <- go r; Ok ((k, w) :: ws)
                  end) content;
      Ok (write_dict_chunks ws)
  | AStream content meta =>
      let z := compress (List.concat content) in
      do ws <- (fix go (l : list (bytes * atom)) : res (list (bytes * bytes)) :=
                  match l with
                  | [] => Ok []
                  | (k, x) :: r => do w <- write_atom x; do ws <- go r; Ok ((k, w) :: ws)
                  end) meta;
      Ok (write_dict_chunks
            (ws ++ [(bs "Length", dec (N.of_nat (List.length z)));
                    (bs "Filter", 47%N :: bs "FlateDecode")])
          ++ [10%N] ++ bs "stream" ++ [10%N] ++ z ++ [10%N] ++ bs "endstream")
  | ARef t => Ok (dec t ++ bs " 0 R")
  end.

(** atoms.py 177-180: [_write_obj] *)
Definition write_obj (o : N * atom) : res bytes :=
  do w <- write_atom (snd o);
  Ok (dec (fst o) ++ bs " 0 obj" ++ [10%N] ++ w ++ [10%N] ++ bs "endobj" ++ [10%N]).

(** atoms.py 191-209: [_write_trailer]; [fid] is the generated file id.  (The id
    array is [repeat(x, 2)].) *)
Definition write_trailer (fid : bytes) (offsets : list N) (xref_offset : N) : res bytes :=
  do d <- write_atom
            (ADict [(bs "Root", ARef 1);
                    (bs "Size", AInt (Z.of_nat (List.length offsets) + 1));
                    (bs "ID", AArr [AHex fid; AHex fid])]);
  Ok (bs "xref" ++ [10%N] ++ dec 0 ++ [32%N] ++ dec (N.of_nat (List.length offsets) + 1)
      ++ [10%N] ++ bs "0000000000 65535 f " ++ [10%N]
      ++ flat_map (fun o => decpad 10 o ++ bs " 00000 n " ++ [10%N]) offsets
      ++ bs "trailer" ++ [10%N] ++ d
      ++ [10%N] ++ bs "startxref" ++ [10%N] ++ dec xref_offset ++ [10%N]
      ++ bs "%%EOF" ++ [10%N]).

(** itertools.accumulate *)
Fixpoint accumulate_from (a : N) (l : list N) : list N :=
  match l with
  | [] => []
  | x :: r => (a + x)%N :: accumulate_from (a + x) r
  end.

(** atoms.py 212-233: [write], the chunks joined per object.  The tuple unpacking
    fails (ValueError) when there are fewer than three objects. *)
Definition write_file (fid : bytes) (objs : list (N * atom)) : res (list bytes) :=
  do chunks <- mapM write_obj objs;
  let offs := accumulate_from 0
                (N.of_nat (List.length header)
                 :: map (fun c => N.of_nat (List.length c)) chunks) in
  match rev offs with
  | xref :: resources :: pagetree :: catalog :: rest =>
      do t <- write_trailer fid (catalog :: pagetree :: resources :: rev rest) xref;
      Ok (header :: chunks ++ [t])
  | _ => Err EValue
  end.
End Write.
