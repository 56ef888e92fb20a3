(** * FontSpec: how a PDF consumer reads the font data pdfje writes.

    Independent of the model: cp1252, UTF-16BE, ToUnicode CMaps (bfchar only),
    W arrays and CIDToGIDMap streams of CID fonts. *)
From Verif Require Import Base Gfmt Atoms PdfSpec.
From Coq Require Import String.
Local Open Scope list_scope.
Open Scope nat_scope.
Notation length := List.length.

(** Code points of the bytes 0x80-0x9f in cp1252 (0 = undefined). *)
Definition cp1252_80 : list N :=
  [8364; 0; 8218; 402; 8222; 8230; 8224; 8225; 710; 8240; 352; 8249; 338; 0; 381; 0;
   0; 8216; 8217; 8220; 8221; 8226; 8211; 8212; 732; 8482; 353; 8250; 339; 0; 382; 376]%N.
Definition cp1252_decode (b : byte) : option char :=
  if (b <? 128)%N then Some b
  else if (b <? 160)%N then
    match nth (N.to_nat (b - 128)) cp1252_80 0%N with 0%N => None | c => Some c end
  else if (b <? 256)%N then Some b else None.

(** UTF-16BE; unpaired surrogates stand for themselves. *)
Fixpoint units (l : bytes) : option (list N) :=
  match l with
  | [] => Some []
  | a :: b :: r => option_map (cons (256 * a + b)%N) (units r)
  | _ => None
  end.
Definition is_hi (u : N) : bool := ((55296 <=? u) && (u <? 56320))%N.
Definition is_lo (u : N) : bool := ((56320 <=? u) && (u <? 57344))%N.
Fixpoint utf16 (l : list N) : list N :=
  match l with
  | [] => []
  | u :: r =>
      match r with
      | v :: r' => if is_hi u && is_lo v
                   then (65536 + (u - 55296) * 1024 + (v - 56320))%N :: utf16 r'
                   else u :: utf16 r
      | [] => [u]
      end
  end.
Definition utf16be_decode (l : bytes) : option (list N) := option_map utf16 (units l).

(** CMap: the bfchar blocks, each with the announced number of entries and its
    entries (source bytes, destination bytes).  [cur] is the value of the last
    decimal number read, [sp] says whether it is complete. *)
Definition after (p l : bytes) : option bytes :=
  if list_eq_dec N.eq_dec (firstn (length p) l) p then Some (skipn (length p) l) else None.
Definition entry : Type := bytes * bytes.
Fixpoint read_cmap (fuel : nat) (block : option (N * list entry)) (cur : N) (sp : bool)
  (l : bytes) : option (list (N * list entry)) :=
  match fuel with
  | O => None
  | S fuel =>
      match block with
      | None =>
          match l with
          | [] => Some []
          | c :: r =>
              match after (bs "beginbfchar") l with
              | Some r' => read_cmap fuel (Some (cur, [])) 0 true r'
              | None => if is_digit c
                        then read_cmap fuel None (if sp then c - 48 else 10 * cur + (c - 48))%N false r
                        else read_cmap fuel None (if is_ws c then cur else 0%N) true r
              end
          end
      | Some (n, es) =>
          match l with
          | [] => None
          | c :: r =>
              if is_ws c then read_cmap fuel block 0 true r
              else match after (bs "endbfchar") l with
              | Some r' => option_map (cons (n, es)) (read_cmap fuel None 0 true r')
              | None =>
                  if (c =? 60)%N then
                    match read_hex None r with
                    | Some (src, r1) =>
                        match skip false r1 with
                        | d :: r2 =>
                            if (d =? 60)%N then
                              match read_hex None r2 with
                              | Some (dst, r3) => read_cmap fuel (Some (n, es ++ [(src, dst)])) 0 true r3
                              | None => None
                              end
                            else None
                        | [] => None
                        end
                    | None => None
                    end
                  else None
              end
          end
      end
  end.
Definition cmap_blocks (l : bytes) : option (list (N * list entry)) :=
  read_cmap (S (length l)) None 0 true l.

(** Text extraction: split into two-byte codes, look each up. *)
Definition bytes_eqb (a b : bytes) : bool := if list_eq_dec N.eq_dec a b then true else false.
Definition lookup_code (es : list entry) (code : bytes) : option (list N) :=
  match find (fun e => bytes_eqb (fst e) code) es with
  | Some e => utf16be_decode (snd e)
  | None => None
  end.
Fixpoint extract (es : list entry) (l : bytes) : option (list N) :=
  match l with
  | [] => Some []
  | a :: b :: r =>
      match lookup_code es [a; b], extract es r with
      | Some c, Some t => Some (c ++ t)
      | _, _ => None
      end
  | _ => None
  end.

(** The characters of a text in order of first appearance. *)
Definition first_uses (s : str) : list char :=
  fold_left (fun acc c => if existsb (N.eqb c) acc then acc else acc ++ [c]) s [].

(** W arrays of the form [c [w1 ... wn] c' [...] ...] (PDF 32000-1, 9.7.4.3) *)
Fixpoint w_lookup (w : list atom) (cid : nat) : option Z :=
  match w with
  | AInt c :: AArr ws :: r =>
      let k := Z.to_nat c in
      if (0 <=? c)%Z && (k <=? cid) && (cid <? k + length ws) then
        match nth_error ws (cid - k) with Some (AInt w) => Some w | _ => None end
      else w_lookup r cid
  | _ => None
  end.
(** CIDToGIDMap: two bytes per CID, big-endian *)
Definition gid_lookup (l : bytes) (cid : nat) : option N :=
  match nth_error l (2 * cid), nth_error l (2 * cid + 1) with
  | Some a, Some b => Some (256 * a + b)%N
  | _, _ => None
  end.
Definition obj_lookup (id : N) (objs : list (N * atom)) : option atom :=
  option_map snd (find (fun o => (fst o =? id)%N) objs).
Definition dict_lookup (k : bytes) (a : atom) : option atom :=
  match a with
  | ADict d => option_map snd (find (fun e => bytes_eqb (fst e) k) d)
  | _ => None
  end.
