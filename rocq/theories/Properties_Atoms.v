(** * Properties C01-C07: object syntax and file structure.
    Statements only; see AtomsProofs, GfmtProofs, NameProofs, FileProofs. *)
From Verif Require Import Base Gfmt GfmtProofs Atoms PdfSpec AtomsProofs NameProofs FileProofs.
From Coq Require Import String.
Local Open Scope list_scope.
Open Scope nat_scope.
Notation length := List.length.

(** C01. [write_atom (ALit v)] is "(" ... ")"; the reader gets [v] back and stops
    right behind the closing parenthesis. *)
Theorem C01_literal_string_round_trip :
  forall (compress : bytes -> bytes) (v rest : bytes),
  exists w, write_atom compress (ALit v) = Ok (40%N :: w) /\
            read_lit 0 (w ++ rest) = Some (v, rest).
Proof.
  intros compress v rest. exists (escape v ++ [41%N]). split; [reflexivity|].
  rewrite <- app_assoc. exact (read_lit_escape v rest).
Qed.
Print Assumptions C01_literal_string_round_trip.
Example C01_example :
  write_atom (fun z => z) (ALit (bs "a(b\" ++ [10; 13; 200]%N)) = Ok (bs "(a\(b\\\n\r" ++ [200; 41]%N).
Proof. reflexivity. Qed.

(** C02. Hex strings. *)
Theorem C02_hex_string_round_trip :
  forall (compress : bytes -> bytes) (v rest : bytes), Forall is_byte v ->
  exists w, write_atom compress (AHex v) = Ok (60%N :: w) /\
            read_hex None (w ++ rest) = Some (v, rest).
Proof.
  intros compress v rest H. exists (hexlify v ++ [62%N]). split; [reflexivity|].
  rewrite <- app_assoc. exact (read_hex_hexlify v rest H).
Qed.
Print Assumptions C02_hex_string_round_trip.
Example C02_example : Forall is_byte [0; 127; 255]%N /\
  write_atom (fun z => z) (AHex [0; 127; 255]%N) = Ok (bs "<007fff>").
Proof. split; [repeat constructor; unfold is_byte; lia | reflexivity]. Qed.

(** C03. Whole trees.  [follow_ok rest]: what follows starts with white space or a
    delimiter and is not "g R" (which would turn a trailing integer into a
    reference); in a file an object is followed by "\nendobj". *)
Theorem C03_atom_round_trip :
  forall (compress : bytes -> bytes) (a : atom), wf_atom a ->
  exists w o, write_atom compress a = Ok w /\ denotes a o /\
    forall rest, follow_ok rest -> read (w ++ rest) = Some (o, rest).
Proof.
  intros compress a H. destruct (atom_round_trip compress a H) as (w & Ew & o & Hd & Hr).
  exists w, o. split; [exact Ew|]. split; [exact Hd|].
  intros rest Hf. apply Hr; [rewrite app_length; auto with arith | exact Hf].
Qed.
Print Assumptions C03_atom_round_trip.
Definition c03_tree : atom :=
  ADict [(bs "Type", AName (bs "A#20B"));
         (bs "Kids", AArr [AInt 3; AInt 0; ARef 7; AInt (-2); AReal (Some (15#10)); ALit (bs "x)");
                           AHex [222; 173]%N; AArr []; ADict []])].
Example C03_example : wf_atom c03_tree /\ follow_ok (10%N :: bs "endobj").
Proof.
  split.
  - cbn. unfold legal_name. repeat split; try (eexists; reflexivity); try reflexivity;
      repeat constructor; unfold is_byte; lia.
  - split; reflexivity.
Qed.
Example C03_example_value : option_map fst (match write_atom (fun z => z) c03_tree with
    Ok w => read (w ++ 10%N :: bs "endobj") | Err _ => None end) =
  Some (PDict [(bs "Type", PName (bs "A B"));
         (bs "Kids", PArr [PInt 3; PInt 0; PRef 7 0; PInt (-2); PReal (15#10); PStr (bs "x)");
                           PStr [222; 173]%N; PArr []; PDict []])]).
Proof. vm_compute. reflexivity. Qed.

(** C04. Numbers printed without exponent are legal and accurate: at most half a
    unit of the sixth significant digit ([e] is the position of the first one). *)
Theorem C04_real_legal_and_accurate_partial :
  forall q : Q, g_plain q = true ->
  exists v, number_value (fmt_g q) = Some v /\
    ((q == 0)%Q -> (v == 0)%Q) /\
    (~ (q == 0)%Q -> exists e, (p10 e <= Qabs q)%Q /\ (Qabs q < p10 (e + 1))%Q /\
                              (Qabs (v - q) <= (1 # 2) * p10 (e - 5))%Q).
Proof.
  intros q H. destruct (fmt_g_plain q H) as (v & Hv & He). exists v. split; [exact Hv|]. split.
  - intros Hq. rewrite He. destruct q as [n d]. unfold g_value, Qeq in *. cbn in Hq.
    destruct n; try lia. reflexivity.
  - intros Hq. destruct (g_value_err q Hq) as (e & H1 & H2 & H3). exists e.
    rewrite He. auto.
Qed.
Print Assumptions C04_real_legal_and_accurate_partial.
(** The range in which that holds. *)
Theorem C04_real_plain_range :
  forall q : Q, (1 # 10000 <= Qabs q)%Q -> (Qabs q < 999999 + (1 # 2))%Q -> g_plain q = true.
Proof. exact g_plain_range. Qed.
Print Assumptions C04_real_plain_range.
(** Outside, the token printed is not a PDF number: every number of a million or
    more, and for instance 1/100000. *)
Theorem C04_real_exponent_refuted :
  (forall q : Q, (1000000 <= Qabs q)%Q -> number_value (fmt_g q) = None) /\
  fmt_g (1 # 100000) = bs "1e-05" /\ number_value (fmt_g (1 # 100000)) = None.
Proof.
  split; [|split; reflexivity].
  intros q H. apply fmt_g_exp, g_not_plain_large, H.
Qed.
Print Assumptions C04_real_exponent_refuted.
Example C04_example : g_plain (1 # 3) = true /\ fmt_g (1 # 3) = bs "0.333333" /\
  fmt_g (5952756 # 10000) = bs "595.276".
Proof. repeat split. Qed.

(** C05. Names: correct when the input has no PDF delimiter ... *)
Theorem C05_sanitize_name_token_partial :
  forall s rest : bytes, forallb (fun c => negb (is_delim c)) s = true -> nonreg_start rest ->
  name_token (47%N :: sanitize_name s ++ rest) = Some (filter printable s, rest).
Proof. exact sanitize_name_token. Qed.
Print Assumptions C05_sanitize_name_token_partial.
(** ... and wrong for every input that has one: the token ends at the delimiter. *)
Theorem C05_sanitize_name_refuted :
  forall (s1 : bytes) (d : N) (s2 rest : bytes),
  forallb (fun c => negb (is_delim c)) s1 = true -> is_delim d = true ->
  exists r, name_token (47%N :: sanitize_name (s1 ++ d :: s2) ++ rest) =
            Some (filter printable s1, d :: r).
Proof. exact sanitize_delim_cut. Qed.
Print Assumptions C05_sanitize_name_refuted.
Example C05_example :
  name_token (47%N :: sanitize_name (bs "DejaVu #1" ++ [233%N]) ++ bs " ") = Some (bs "DejaVu #1", bs " ") /\
  name_token (47%N :: sanitize_name (bs "Foo(Bar)") ++ bs " ") = Some (bs "Foo", bs "(Bar) ").
Proof. split; vm_compute; reflexivity. Qed.

(** C06. The cross-reference table. *)
Theorem C06_xref_offsets_exact :
  forall compress fid main cat pt rs parts,
  protocol main cat pt rs -> Forall is_byte fid ->
  write_file compress fid (main ++ [cat; pt; rs]) = Ok parts ->
  let file := List.concat parts in
  (N.of_nat (length file) < 10 ^ 10)%N ->
  exists x entries tr,
    read_startxref file = Some x /\
    strip_prefix (bs "xref" ++ [10%N]) (at_offset x file) <> None /\
    read_xref (at_offset x file) = Some (entries, tr) /\
    length entries = length main + 4 /\
    nth_error entries 0 = Some (XFree 0 65535) /\
    forall i, 0 < i < length entries -> exists o rest,
      nth_error entries i = Some (XUsed o 0) /\
      at_offset o file = dec (N.of_nat i) ++ bs " 0 obj" ++ 10%N :: rest.
Proof. exact xref_offsets. Qed.
Print Assumptions C06_xref_offsets_exact.

(** C07. A reader recovers all objects and the trailer. *)
Theorem C07_file_round_trip :
  forall compress fid main cat pt rs parts,
  protocol main cat pt rs ->
  Forall (fun o => ok_object (snd o)) (main ++ [cat; pt; rs]) ->
  Forall is_byte fid ->
  write_file compress fid (main ++ [cat; pt; rs]) = Ok parts ->
  let file := List.concat parts in
  (N.of_nat (length file) < 10 ^ 10)%N ->
  exists read_objs,
    read_file file = Some (read_objs, trailer_dict fid (length main + 3)) /\
    Forall2 (obj_reads compress) (cat :: pt :: rs :: main) read_objs.
Proof. exact file_round_trip. Qed.
Print Assumptions C07_file_round_trip.

(** The file begins with its version on a line, and a comment line that starts with four
    bytes above 127 (ISO 32000-1, 7.5.2). *)
Definition is_eol (c : N) : bool := ((c =? 10) || (c =? 13))%N.
Fixpoint first_line (f : bytes) : bytes :=
  match f with [] => [] | c :: r => if is_eol c then [] else c :: first_line r end.
Definition announces_binary (f : bytes) : Prop :=
  exists version comment, first_line f = bs "%PDF-" ++ version
  /\ In version [bs "1.0"; bs "1.1"; bs "1.2"; bs "1.3"; bs "1.4"; bs "1.5"; bs "1.6"; bs "1.7"; bs "2.0"]
  /\ first_line (skipn (S (length (first_line f))) f) = 37%N :: comment
  /\ 4 <= length comment /\ Forall (fun c => 128 <= c < 256)%N (firstn 4 comment)
  /\ exists rest, f = first_line f ++ [10%N] ++ 37%N :: comment ++ [10%N] ++ rest.
Theorem C07_header : forall compress fid objs parts,
  write_file compress fid objs = Ok parts -> announces_binary (List.concat parts).
Proof.
  intros compress fid objs parts E. unfold write_file in E. apply bind_ok in E as (chunks & _ & E).
  destruct (rev _) as [|a [|b [|c [|d r]]]]; try discriminate. apply bind_ok in E as (t & _ & E).
  apply Ok_inj in E. subst parts. cbn [List.concat]. set (rest := List.concat _). clearbody rest.
  exists (bs "1.7"), ([128; 128; 128; 128]%N ++ bs " generated by pdfje"). split; [reflexivity|].
  split; [cbn [In]; tauto|]. split; [reflexivity|]. split; [cbn; lia|]. split; [repeat constructor; cbn; lia|].
  exists rest. reflexivity.
Qed.
Print Assumptions C07_header.
Definition c07_main : list (N * atom) :=
  [(4%N, AName (bs "Page")); (5%N, AStream [bs "BT"; bs " ET"] [(bs "Length1", AInt 12)])].
Example C07_example :
  protocol c07_main (1%N, ADict [(bs "Pages", ARef 2)]) (2%N, AArr [ARef 4]) (3%N, ADict []) /\
  Forall (fun o => ok_object (snd o))
    (c07_main ++ [(1%N, ADict [(bs "Pages", ARef 2)]); (2%N, AArr [ARef 4]); (3%N, ADict [])]) /\
  match write_file (fun z => z) [1; 2]%N
    (c07_main ++ [(1%N, ADict [(bs "Pages", ARef 2)]); (2%N, AArr [ARef 4]); (3%N, ADict [])]) with
  | Ok parts =>
      option_map fst (read_file (List.concat parts)) =
      Some [(1%N, PDict [(bs "Pages", PRef 2 0)], None); (2%N, PArr [PRef 4 0], None);
            (3%N, PDict [], None); (4%N, PName (bs "Page"), None);
            (5%N, PDict [(bs "Length1", PInt 12); (bs "Length", PInt 5);
                         (bs "Filter", PName (bs "FlateDecode"))], Some (bs "BT ET"))]
  | Err _ => False
  end.
Proof.
  split; [repeat split|]. split.
  - repeat constructor; cbn; unfold legal_name; repeat split; try (eexists; reflexivity); try reflexivity.
    repeat constructor; cbn; try (eexists; reflexivity).
    repeat constructor; cbn. discriminate.
  - vm_compute. reflexivity.
Qed.
