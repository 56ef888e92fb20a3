(** * Properties C14-C18, C30: fonts, encodings, kerning tables.
    Specification of the readers: FontSpec.  Proofs: FontProofs. *)
From Verif Require Import Base Gfmt GfmtProofs Atoms PdfSpec AtomsProofs FontSpec.
From Verif Require Import Num Fonts FontProofs.
From Coq Require Import String Sorting.Sorted.
Local Open Scope list_scope.
Open Scope nat_scope.
Notation length := List.length.

(** C14. [encodes cids_empty hist] runs the calls [encode(s)] for s in [hist] on a
    new embedded font: the bytes of each call, and the final code table. *)
Theorem C14_embedded_text_recoverable :
  forall (hist : list str) (outs : list bytes) (m : cidmap),
  encodes cids_empty hist = (outs, m) ->
  Forall (Forall (fun c => c < 1114112)%N) hist ->
  (N.of_nat (length (cm_entries m)) <= 65536)%N ->
  map fst (cm_entries m) = first_uses (List.concat hist) /\
  map snd (cm_entries m) = map N.of_nat (seq 0 (length (cm_entries m))) /\
  NoDup (map fst (cm_entries m)) /\
  exists es,
    cmap_blocks (List.concat (unicode_map (cm_entries m))) = Some [(N.of_nat (length (cm_entries m)), es)] /\
    length es = length (cm_entries m) /\
    Forall2 (fun s o => length o = 2 * length s /\ extract es o = Some s) hist outs.
Proof. exact encodes_recover. Qed.
Print Assumptions C14_embedded_text_recoverable.
Example C14_example :
  let hist := [[72; 101; 108; 108; 111]; [128512; 72]; []; [8364; 108]]%N in
  let (outs, m) := encodes cids_empty hist in
  outs = [[0;0;0;1;0;2;0;2;0;3]; [0;4;0;0]; []; [0;5;0;2]]%N /\
  Forall (Forall (fun c => c < 1114112)%N) hist /\
  extract (match cmap_blocks (List.concat (unicode_map (cm_entries m))) with Some [(_, es)] => es | _ => [] end)
    [0;5;0;2;0;4]%N = Some [8364; 108; 128512]%N.
Proof. split; [reflexivity|]. split; [repeat constructor|vm_compute; reflexivity]. Qed.

(** C15. The objects written for an embedded font after any history. *)
Theorem C15_tables_indexed_by_code :
  forall (NUM : Num) (ENV : Env NUM) (f : font) (t : ttf) (hist : list str) outs m id objs c i,
  encodes cids_empty hist = (outs, m) ->
  subset_objects f t m id = Ok objs -> In (c, i) (cm_entries m) ->
  exists dict w stream,
    obj_lookup (id + 1) objs = Some dict /\ dict_lookup (bs "W") dict = Some (AArr w) /\
    w_lookup w (N.to_nat i) = Some (ntrunc (charwidth f c)) /\
    dict_lookup (bs "CIDToGIDMap") dict = Some (ARef (id + 5)) /\
    obj_lookup (id + 5) objs = Some (AStream stream []) /\
    gid_lookup (List.concat stream) (N.to_nat i) = Some (ttf_gid t (map fst (cm_entries m)) c).
Proof.
  intros NUM ENV f t hist outs m id objs c i E. apply subset_tables.
  destruct (encodes_ok hist cids_empty outs m) as (K & _); auto. split; reflexivity.
Qed.
Print Assumptions C15_tables_indexed_by_code.
Definition ex_ttf : ttf :=
  {| ttf_name := bs "Ex"; ttf_dw := Some 500%Q; ttf_flags := 4; ttf_bbox := [0; 0; 1; 1]%Z;
     ttf_italic_angle := 0; ttf_ascent := 700; ttf_descent := (-200); ttf_cap_height := 650; ttf_stem_v := 80;
     ttf_gid := fun _ c => (c + 3)%N; ttf_file := fun _ => [] |}.
#[local] Instance ex_env : Env QcNum :=
  {| charwidth := fun _ c => nZ (Z.of_N c); kerntab := fun _ => None; hyphenator := fun _ s => [s];
     is_wordchar := fun _ => true |}.
Example C15_example : exists objs,
  subset_objects (mkFont (TTrue 1 2 3 4) false false) ex_ttf (snd (encodes cids_empty [[72; 105]; [33; 72]]%N)) 9 = Ok objs
  /\ In (33, 2)%N (cm_entries (snd (encodes cids_empty [[72; 105]; [33; 72]]%N))).
Proof. eexists. split; [reflexivity|]. vm_compute. auto. Qed.

(** C16. *)
Theorem C16_utf16be_hex : forall (c : N) (rest : bytes), (c < 1114112)%N ->
  exists d, read_hex None (utf16be_hex c ++ 62%N :: rest) = Some (d, rest) /\
            utf16be_decode d = Some [c].
Proof. exact read_utf16be_hex. Qed.
Print Assumptions C16_utf16be_hex.
(** the codes of characters in strings are written in the same encoding *)
Theorem C16_code_bytes : forall (c : N), (c < 1114112)%N -> utf16be_decode (utf16be_char c) = Some [c].
Proof.
  intros c H. unfold utf16be_char, utf16be_decode. destruct (N.ltb_spec c 65536) as [L|L].
  - cbn [units option_map utf16]. do 2 f_equal. pose proof (N.div_mod c 256). lia.
  - set (j := (c - 65536)%N). pose proof (N.div_mod j 1024 ltac:(lia)) as E1. pose proof (N.mod_lt j 1024 ltac:(lia)) as L1.
    assert (J : (j / 1024 < 1024)%N) by (apply N.div_lt_upper_bound; lia).
    set (hi := (55296 + j / 1024)%N). set (lo := (56320 + j mod 1024)%N).
    cbn [units option_map utf16]. pose proof (N.div_mod hi 256 ltac:(lia)) as EH. pose proof (N.div_mod lo 256 ltac:(lia)) as EL.
    rewrite <- EH, <- EL. unfold is_hi, is_lo.
    rewrite (proj2 (N.leb_le 55296 hi)) by (unfold hi; lia). rewrite (proj2 (N.ltb_lt hi 56320)) by (unfold hi; lia).
    rewrite (proj2 (N.leb_le 56320 lo)) by (unfold lo; lia). rewrite (proj2 (N.ltb_lt lo 57344)) by (unfold lo; lia).
    cbn [andb]. do 2 f_equal. unfold hi, lo. lia.
Qed.
Print Assumptions C16_code_bytes.
Example C16_example : utf16be_hex 128512 = bs "D83DDE00" /\ utf16be_hex 233 = bs "00E9".
Proof. split; reflexivity. Qed.

(** C17. The map always has one block, with as many entries as characters used:
    the limit of 100 holds only up to 100 characters ... *)
Definition entries_ok (m : list (N * N)) : Prop :=
  Forall (fun e => fst e < 1114112 /\ snd e < 65536)%N m.
Theorem C17_block_limit_partial : forall (m : list (N * N)), entries_ok m -> length m <= 100 ->
  exists blocks, cmap_blocks (List.concat (unicode_map m)) = Some blocks /\
    Forall (fun b => length (snd b) <= 100 /\ fst b = N.of_nat (length (snd b))) blocks.
Proof.
  intros m H Hl. exists [(N.of_nat (length m), map cmap_entry m)].
  split; [apply cmap_read_all, H|]. constructor; [|constructor].
  cbn [fst snd]. rewrite map_length. auto.
Qed.
Print Assumptions C17_block_limit_partial.
(** ... and fails for every larger set of characters. *)
Theorem C17_block_limit_refuted : forall (m : list (N * N)), entries_ok m -> length m > 100 ->
  exists block, cmap_blocks (List.concat (unicode_map m)) = Some [block] /\ length (snd block) > 100.
Proof.
  intros m H Hl. exists (N.of_nat (length m), map cmap_entry m).
  split; [apply cmap_read_all, H|]. cbn. rewrite map_length. exact Hl.
Qed.
Print Assumptions C17_block_limit_refuted.
Example C17_example :
  let m := map (fun k => (N.of_nat (k + 256), N.of_nat k)) (seq 0 101) in
  m = cm_entries (snd (encodes cids_empty [map fst m])) /\ entries_ok m /\ length m > 100.
Proof.
  split; [reflexivity|]. split.
  - unfold entries_ok. apply Forall_forall. intros e He. apply in_map_iff in He as (k & <- & Hk).
    apply in_seq in Hk. cbn [fst snd]. lia.
  - rewrite map_length, seq_length. lia.
Qed.

(** C18. *)
Theorem C18_builtin_encode : forall (s : str),
  length (encode_builtin s) = length s /\
  Forall2 (fun c b => (cp1252_decode b = Some c) \/
                      ((forall b', cp1252_decode b' <> Some c) /\ b = 63%N)) s (encode_builtin s).
Proof.
  intros s. unfold encode_builtin. split; [apply map_length|].
  induction s as [|c s IH]; constructor; auto.
  destruct (cp1252_char_total c) as [H|H]; auto.
  destruct (N.eq_dec c 63) as [->|Hne]; [left; reflexivity|]. right. split; auto.
  intros b' Hb. pose proof (cp1252_decode_char _ _ Hb) as E. rewrite H in E. subst b'.
  apply Hne. cbv in Hb. congruence.
Qed.
Print Assumptions C18_builtin_encode.
Example C18_example : encode_builtin [65; 8364; 233; 20013; 8203]%N = [65; 128; 233; 63; 63]%N.
Proof. reflexivity. Qed.

(** C30. *)
Definition preceding (prev : option char) (s : str) (i : nat) : option char :=
  match i with O => prev | S k => nth_error s k end.
Theorem C30_kern_positions :
  forall (NUM : Num) (table : char -> char -> num) (s : str) (prev : option char),
  (forall i k, In (i, k) (kern table s prev) <->
     exists a b, preceding prev s i = Some a /\ nth_error s i = Some b /\
                 k = table a b /\ ntruthy k = true) /\
  StronglySorted lt (map fst (kern table s prev)).
Proof.
  intros NUM table s prev. split.
  - intros i k. unfold kern. destruct prev as [p|]; rewrite kern_from_in.
    + assert (HP : nth_error (p :: s) i = preceding (Some p) s i) by (destruct i; reflexivity).
      rewrite Nat.sub_0_r, pairwise_nth. split.
      * intros (a & b & H & _ & H2). exists a, b.
        change (nth_error (p :: s) (S i)) with (nth_error s i) in H.
        rewrite HP in H.
        destruct (preceding (Some p) s i), (nth_error s i); inversion H; subst; auto.
      * intros (a & b & Ha & Hb & H2). exists a, b. split; [|split; [lia|auto]].
        change (nth_error (p :: s) (S i)) with (nth_error s i).
        rewrite HP, Ha, Hb. reflexivity.
    + rewrite pairwise_nth. split.
      * intros (a & b & H & Hle & H2). exists a, b. destruct i as [|i]; [lia|].
        replace (S i - 1) with i in H by lia. cbn [preceding].
        destruct (nth_error s i), (nth_error s (S i)); inversion H; subst; auto.
      * intros (a & b & Ha & Hb & H2). exists a, b. destruct i as [|i]; [discriminate|].
        replace (S i - 1) with i by lia. cbn [preceding] in Ha. rewrite Ha, Hb. split; [auto|split; [lia|auto]].
  - unfold kern. destruct prev; apply kern_from_sorted.
Qed.
Print Assumptions C30_kern_positions.
Example C30_example :
  let t := fun a b => if ((a =? 65) && (b =? 86))%N then @nZ QcNum (-70) else n0 in
  map fst (kern t [86; 65; 86; 86]%N (Some 65%N)) = [0; 2].
Proof. reflexivity. Qed.
