(** * FileProofs: the written file is read back through its xref table *)
From Verif Require Import Base Gfmt GfmtProofs Atoms PdfSpec AtomsProofs.
From Coq Require Import String.
Local Open Scope list_scope.
Open Scope nat_scope.
Notation length := List.length.

Lemma at_offset_app pre x : at_offset (N.of_nat (length pre)) (pre ++ x) = x.
Proof.
  unfold at_offset. rewrite Nat2N.id.
  rewrite skipn_app, skipn_all, Nat.sub_diag. reflexivity.
Qed.

Lemma strip_prefix_app p x : strip_prefix p (p ++ x) = Some x.
Proof.
  unfold strip_prefix. rewrite firstn_app, firstn_all, Nat.sub_diag. simpl.
  rewrite app_nil_r, skipn_app, skipn_all, Nat.sub_diag.
  destruct (list_eq_dec _ p p); [reflexivity|congruence].
Qed.

Lemma read_nat_tok_dec n rest : nonreg_start rest -> read_nat_tok (dec n ++ rest) = Some (n, rest).
Proof.
  intros Hns. unfold read_nat_tok.
  pose proof (dec_nonnil n) as Hn. pose proof (dec_all_digits n) as Ha.
  pose proof (dec_val n) as Hv.
  destruct (digits_not_nil _ Ha Hn) as (c & r & E & Hc).
  pose proof (take_regular_app (dec n) rest (digits_regular _ Ha) Hns) as Ht.
  rewrite E in *. cbn [app] in *. rewrite head_skip by auto. rewrite Ht, Ha, Hv. reflexivity.
Qed.
Lemma read_nat_tok_ws c n rest : is_ws c = true -> nonreg_start rest ->
  read_nat_tok (c :: dec n ++ rest) = Some (n, rest).
Proof.
  intros Hc Hns. unfold read_nat_tok. rewrite skip_ws1 by auto.
  apply (read_nat_tok_dec n rest Hns).
Qed.

Lemma read_obj_ws n c l : is_ws c = true -> read_obj n (c :: l) = read_obj n l.
Proof. intros H. destruct n as [|n]; [reflexivity|]. cbn [read_obj]. rewrite skip_ws1 by auto. reflexivity. Qed.

Section F.
Variable compress : bytes -> bytes.
Notation write_atom := (write_atom compress).
Notation write_obj := (write_obj compress).

(** Objects that may stand at the top level. A stream's own entries must not
    include Length, which the writer adds. *)
Definition ok_object (a : atom) : Prop :=
  match a with
  | AStream _ meta => wf_entries meta /\
      Forall (fun kv => decode_name (fst kv) <> Some (bs "Length")) meta
  | a => wf_atom a
  end.

(** What a reader must get for an object. *)
Definition obj_reads (o : N * atom) (r : N * pobj * option bytes) : Prop :=
  let '(num, v, data) := r in
  num = fst o /\
  match snd o with
  | AStream content meta =>
      data = Some (compress (List.concat content)) /\
      denotes (ADict (meta ++ [(bs "Length", AInt (Z.of_nat (length (compress (List.concat content)))));
                               (bs "Filter", AName (bs "FlateDecode"))])) v
  | a => data = None /\ denotes a v
  end.

Lemma nl_endobj_ok tl : follow_ok (10%N :: bs "endobj" ++ tl).
Proof.
  split; [reflexivity|]. unfold read_ref_tail.
  change (skip false (10%N :: bs "endobj" ++ tl)) with (bs "endobj" ++ tl).
  cbn [bs map list_ascii_of_string Ascii.N_of_ascii app].
  unfold bs. simpl map. cbn [app take_regular].
  repeat match goal with |- context [is_regular ?c] => change (is_regular c) with true end.
  cbn iota. destruct (take_regular tl) as [t r]. reflexivity.
Qed.
Lemma nl_stream_ok tl : follow_ok (10%N :: bs "stream" ++ tl).
Proof.
  split; [reflexivity|]. unfold read_ref_tail.
  change (skip false (10%N :: bs "stream" ++ tl)) with (bs "stream" ++ tl).
  unfold bs. simpl map. cbn [app take_regular].
  repeat match goal with |- context [is_regular ?c] => change (is_regular c) with true end.
  cbn iota. destruct (take_regular tl) as [t r]. reflexivity.
Qed.

Lemma keyword_nl (k : string) tl :
  (exists c r, bs k = c :: r /\ is_regular c = true) ->
  keyword k (10%N :: bs k ++ tl) = Some tl.
Proof.
  intros (c & r & E & Hc). unfold keyword. rewrite skip_ws1 by reflexivity.
  replace (skip false (bs k ++ tl)) with (bs k ++ tl).
  - apply strip_prefix_app.
  - rewrite E. cbn [app]. rewrite regular_skip; auto.
Qed.

Lemma read_app_fuel a w c rest o :
  (forall n rest, length w <= n -> follow_ok rest -> read_obj n (w ++ rest) = Some (o, rest)) ->
  is_ws c = true -> follow_ok rest -> denotes a o ->
  read (c :: w ++ rest) = Some (o, rest).
Proof.
  intros H Hc Hf _. unfold read. rewrite read_obj_ws by auto. apply H; auto.
  cbn [length]. rewrite app_length. lia.
Qed.

Lemma denotes_entries_lookup l os k v :
  Forall2 (fun kv kv' => decode_name (fst kv) = Some (fst kv') /\ denotes (snd kv) (snd kv')) l os ->
  Forall (fun kv => decode_name (fst kv) <> Some k) l ->
  forall tl, lookup k (os ++ (k, v) :: tl) = Some v.
Proof.
  intros H Hn tl. unfold lookup.
  induction H as [|[k1 a] [k2 o] l os [H1 H2] H IH]; cbn [app find fst snd] in *.
  - destruct (list_eq_dec N.eq_dec k k); [reflexivity|congruence].
  - inversion Hn; subst. cbn [fst] in *.
    destruct (list_eq_dec N.eq_dec k2 k) as [->|]; [congruence|]. auto.
Qed.

Lemma read_indirect_obj o chunk rest : ok_object (snd o) -> write_obj o = Ok chunk ->
  exists v data, read_indirect (chunk ++ rest) = Some (fst o, 0%N, v, data) /\
                 obj_reads o (fst o, v, data).
Proof.
  destruct o as [i a]. cbn [fst snd]. intros Hok H.
  unfold Atoms.write_obj in H. cbn [fst snd] in H.
  apply bind_ok in H as (w & Hw & H). apply Ok_inj in H; subst.
  assert (Hpre : forall X, read_indirect (dec i ++ bs " 0 obj" ++ 10%N :: X) =
    match read (10%N :: X) with
    | None => None
    | Some (o, r4) =>
    match keyword "endobj" r4 with
    | Some _ => Some (i, 0%N, o, None)
    | None =>
        match o, keyword "stream" r4 with
        | PDict d, Some (10%N :: r5) =>
            match lookup (bs "Length") d with
            | Some (PInt len) =>
                let n := Z.to_nat len in
                if (Z.of_nat (length r5) <? len)%Z then None
                else match keyword "endstream" (skipn n r5) with
                     | None => None
                     | Some r6 => match keyword "endobj" r6 with
                                  | Some _ => Some (i, 0%N, o, Some (firstn n r5))
                                  | None => None
                                  end
                     end
            | _ => None
            end
        | _, _ => None
        end
    end end).
  { intros X. unfold read_indirect.
    rewrite (read_nat_tok_dec i) by reflexivity.
    change (bs " 0 obj" ++ 10%N :: X) with (32%N :: dec 0 ++ bs " obj" ++ 10%N :: X).
    rewrite read_nat_tok_ws by reflexivity.
    replace (keyword "obj" (bs " obj" ++ 10%N :: X)) with (Some (10%N :: X)); [reflexivity|].
    symmetry. change (bs " obj" ++ 10%N :: X) with (32%N :: bs "obj" ++ 10%N :: X).
    unfold keyword. rewrite skip_ws1 by reflexivity.
    change (skip false (bs "obj" ++ 10%N :: X)) with (bs "obj" ++ 10%N :: X).
    apply strip_prefix_app. }
  rewrite <- !app_assoc. cbn [app]. rewrite Hpre. clear Hpre.
  assert (Hplain : wf_atom a -> exists v, denotes a v /\
     read (10%N :: w ++ 10%N :: bs "endobj" ++ 10%N :: rest) = Some (v, 10%N :: bs "endobj" ++ 10%N :: rest)).
  { intros Hwf. destruct (atom_round_trip compress a Hwf) as (w' & Ew & v & Hden & Hrd).
    rewrite Hw in Ew. injection Ew as <-.
    exists v. split; auto. apply (read_app_fuel a); auto using nl_endobj_ok. }
  assert (Hrest : forall v, denotes a v ->
     read (10%N :: w ++ 10%N :: bs "endobj" ++ 10%N :: rest) = Some (v, 10%N :: bs "endobj" ++ 10%N :: rest) ->
     (match a with AStream _ _ => False | _ => True end) ->
     exists v data, match read (10%N :: w ++ 10%N :: bs "endobj" ++ 10%N :: rest) with
    | None => None
    | Some (o, r4) =>
    match keyword "endobj" r4 with
    | Some _ => Some (i, 0%N, o, None)
    | None =>
        match o, keyword "stream" r4 with
        | PDict d, Some (10%N :: r5) =>
            match lookup (bs "Length") d with
            | Some (PInt len) =>
                let n := Z.to_nat len in
                if (Z.of_nat (length r5) <? len)%Z then None
                else match keyword "endstream" (skipn n r5) with
                     | None => None
                     | Some r6 => match keyword "endobj" r6 with
                                  | Some _ => Some (i, 0%N, o, Some (firstn n r5))
                                  | None => None
                                  end
                     end
            | _ => None
            end
        | _, _ => None
        end
    end end = Some (i, 0%N, v, data) /\ obj_reads (i, a) (i, v, data)).
  { intros v Hden Hrd Hns. exists v, None. split.
    - rewrite Hrd. rewrite keyword_nl; [reflexivity|].
      do 2 eexists. split; [reflexivity|reflexivity].
    - unfold obj_reads. split; [reflexivity|]. cbn [snd]. destruct a; auto. destruct Hns. }
  destruct a as [v|z|q|v|v|l|l|content meta|t];
    try (destruct (Hplain Hok) as (v0 & Hden & Hrd); apply (Hrest v0); auto; fail).
  (* stream *)
  clear Hplain Hrest. destruct Hok as [Hmeta Hnolen].
  cbn [Atoms.write_atom] in Hw. rewrite write_ents_eq in Hw.
  set (z := compress (List.concat content)) in *.
  apply bind_ok in Hw as (ws & Ews & Hw). apply Ok_inj in Hw; subst.
  set (full := meta ++ [(bs "Length", AInt (Z.of_nat (length z))); (bs "Filter", AName (bs "FlateDecode"))]).
  assert (Hwf : wf_atom (ADict full)).
  { apply wf_dict. unfold wf_entries, full. apply Forall_app. split; [exact Hmeta|].
    repeat constructor; cbn; eauto; try (eexists; reflexivity). }
  destruct (atom_round_trip compress _ Hwf) as (wd & Ewd & v & Hden & Hrd).
  assert (Ed : wd = write_dict_chunks (ws ++ [(bs "Length", dec (N.of_nat (length z)));
                    (bs "Filter", 47%N :: bs "FlateDecode")])).
  { rewrite write_dict_eq in Ewd. unfold full in Ewd.
    assert (Hm : mapM (write_kv compress) (meta ++ [(bs "Length", AInt (Z.of_nat (length z))); (bs "Filter", AName (bs "FlateDecode"))])
       = Ok (ws ++ [(bs "Length", dec (N.of_nat (length z))); (bs "Filter", 47%N :: bs "FlateDecode")])).
    { clear -Ews. revert ws Ews. induction meta as [|kv meta IH]; cbn [mapM app]; intros ws H.
      - apply Ok_inj in H; subst. unfold write_kv. cbn [fst snd Atoms.write_atom bind app].
        repeat f_equal. destruct (length z); reflexivity.
      - destruct (write_kv compress kv) as [x|]; [|discriminate]. cbn [bind] in *.
        destruct (mapM (write_kv compress) meta) as [xs|]; [|discriminate]. cbn [bind] in H.
        apply Ok_inj in H; subst. rewrite (IH xs eq_refl). reflexivity. }
    rewrite Hm in Ewd. cbn [bind] in Ewd. congruence. }
  rewrite <- Ed.
  pose proof Hden as Hden0.
  inversion Hden as [| | | | | | | l l' HF |]; subst v l.
  assert (Hlen : lookup (bs "Length") l' = Some (PInt (Z.of_nat (length z)))).
  { unfold full in HF. apply Forall2_app_inv_l in HF as (o1 & o2 & HF1 & HF2 & ->).
    inversion HF2 as [|? ? ? ? [Hk Hv] HF3]; subst. cbn [fst snd] in *.
    destruct y as [ky vy]. cbn [fst snd] in *.
    inversion Hv; subst. injection Hk as <-.
    eapply denotes_entries_lookup; eauto. }
  exists (PDict l'), (Some z). split.
  - rewrite <- !app_assoc. cbn [app].
    rewrite (read_app_fuel (ADict full) wd 10 _ (PDict l')); auto.
    2: { apply nl_stream_ok. }
    replace (keyword "endobj" (10%N :: bs "stream" ++ 10%N :: z ++ 10%N :: bs "endstream" ++ 10%N :: bs "endobj" ++ 10%N :: rest))
      with (@None bytes) by reflexivity.
    rewrite keyword_nl by (do 2 eexists; split; reflexivity).
    rewrite Hlen. cbn zeta. rewrite Nat2Z.id.
    replace (Z.of_nat (length (z ++ 10%N :: bs "endstream" ++ 10%N :: bs "endobj" ++ 10%N :: rest)) <? Z.of_nat (length z))%Z
      with false by (rewrite app_length; lia).
    rewrite skipn_app, skipn_all, Nat.sub_diag. cbn [skipn app].
    rewrite keyword_nl by (do 2 eexists; split; reflexivity).
    rewrite keyword_nl by (do 2 eexists; split; reflexivity).
    rewrite firstn_app, firstn_all, Nat.sub_diag. cbn [firstn]. rewrite app_nil_r. reflexivity.
  - unfold obj_reads. cbn [fst snd]. auto.
Qed.

(** ** Offsets *)
Lemma accumulate_from_map a (chunks : list bytes) :
  accumulate_from a (map (fun c => N.of_nat (length c)) chunks) =
  map (fun k => (a + N.of_nat (length (List.concat (firstn (S k) chunks))))%N) (seq 0 (length chunks)).
Proof.
  revert a; induction chunks as [|c chunks IH]; intros a; [reflexivity|].
  cbn [map accumulate_from length seq]. f_equal.
  - cbn [firstn List.concat]. rewrite app_nil_r. reflexivity.
  - rewrite IH, <- seq_shift, map_map. apply map_ext. intros k.
    cbn [firstn List.concat]. rewrite !app_length. lia.
Qed.

(** Offset of the k-th chunk after the header. *)
Definition off (chunks : list bytes) (k : nat) : N :=
  N.of_nat (length (header ++ List.concat (firstn k chunks))).

Lemma accumulate_off chunks :
  accumulate_from 0 (N.of_nat (length header) :: map (fun c => N.of_nat (length c)) chunks) =
  map (off chunks) (seq 0 (S (length chunks))).
Proof.
  cbn [accumulate_from seq map].
  assert (E0 : (0 + N.of_nat (length header))%N = off chunks 0).
  { unfold off. cbn [firstn List.concat]. rewrite app_nil_r. lia. }
  rewrite <- E0. apply (f_equal (cons _)).
  rewrite accumulate_from_map, <- seq_shift, map_map. apply map_ext. intros k.
  unfold off. rewrite app_length. lia.
Qed.

Lemma concat_split (chunks : list bytes) k c : nth_error chunks k = Some c ->
  List.concat chunks = List.concat (firstn k chunks) ++ c ++ List.concat (skipn (S k) chunks).
Proof.
  intros H. rewrite <- (firstn_skipn k chunks) at 1. rewrite concat_app. f_equal.
  revert chunks H; induction k as [|k IH]; intros [|x chunks] H; try discriminate.
  - injection H as ->. reflexivity.
  - cbn [skipn]. apply IH. exact H.
Qed.

Lemma at_off chunks t k c : nth_error chunks k = Some c ->
  at_offset (off chunks k) (List.concat (header :: chunks ++ [t])) =
  c ++ List.concat (skipn (S k) chunks) ++ t.
Proof.
  intros H. unfold off. cbn [List.concat]. rewrite concat_app. cbn [List.concat]. rewrite app_nil_r.
  rewrite (concat_split chunks k c H) at 1.
  replace (header ++ (List.concat (firstn k chunks) ++ c ++ List.concat (skipn (S k) chunks)) ++ t)
    with ((header ++ List.concat (firstn k chunks)) ++ (c ++ List.concat (skipn (S k) chunks) ++ t))
    by (rewrite <- !app_assoc; reflexivity).
  apply at_offset_app.
Qed.

Lemma at_off_end chunks t :
  at_offset (off chunks (length chunks)) (List.concat (header :: chunks ++ [t])) = t.
Proof.
  unfold off. rewrite firstn_all. cbn [List.concat]. rewrite concat_app. cbn [List.concat].
  rewrite app_nil_r, app_assoc. apply at_offset_app.
Qed.

(** ** The trailer *)
Lemma find_last_app p x y i : find_last p y = Some i -> find_last p (x ++ y) = Some (length x + i).
Proof.
  intros H. induction x as [|c x IH]; [exact H|]. cbn [app find_last]. rewrite IH. reflexivity.
Qed.
Lemma strip_prefix_not_in c p l : ~ In c l -> strip_prefix (c :: p) l = None.
Proof.
  intros H. unfold strip_prefix. destruct l as [|x l]; cbn [firstn length].
  - destruct (list_eq_dec _ [] (c :: p)); [discriminate|reflexivity].
  - destruct (list_eq_dec _ (x :: firstn (length p) l) (c :: p)) as [E|]; [|reflexivity].
    injection E as -> _. exfalso. apply H. left. reflexivity.
Qed.
Lemma find_last_not_in c p l : ~ In c l -> find_last (c :: p) l = None.
Proof.
  induction l as [|x l IH]; intros H; [reflexivity|]. cbn [find_last].
  rewrite IH by (intros Hi; apply H; right; exact Hi).
  rewrite strip_prefix_not_in; auto.
Qed.

Lemma read_startxref_spec pre x :
  read_startxref (pre ++ bs "startxref" ++ 10%N :: dec x ++ 10%N :: bs "%%EOF" ++ [10%N]) = Some x.
Proof.
  unfold read_startxref.
  assert (Hnot : ~ In 115%N (10%N :: dec x ++ 10%N :: bs "%%EOF" ++ [10%N])).
  { intros [H|H]; [discriminate|]. apply in_app_or in H as [H|H].
    - pose proof (dec_digits x) as Hd. rewrite Forall_forall in Hd. apply Hd in H. discriminate.
    - unfold bs in H. cbn in H. intuition discriminate. }
  rewrite (find_last_app _ _ _ 0).
  2: { set (tl := 10%N :: dec x ++ 10%N :: bs "%%EOF" ++ [10%N]) in *.
       change (bs "startxref") with (115%N :: bs "tartxref").
       cbn [app find_last].
       rewrite app_comm_cons, strip_prefix_app.
       change (bs "tartxref") with [116; 97; 114; 116; 120; 114; 101; 102]%N.
       cbn [app]. rewrite find_last_not_in; [reflexivity|].
       intros Hin. cbn [In] in Hin. repeat destruct Hin as [Hin|Hin]; try discriminate.
       apply Hnot. right. exact Hin. }
  rewrite skipn_app.
  replace (length pre + 0 + 9 - length pre) with 9 by lia.
  rewrite skipn_all2 by lia. cbn [app].
  change (skipn 9 (bs "startxref" ++ ?y)) with y.
  rewrite read_nat_tok_ws by reflexivity.
  change (10%N :: bs "%%EOF" ++ [10%N]) with ((10%N :: bs "%%EOF") ++ [10%N]).
  rewrite strip_prefix_app. reflexivity.
Qed.

Lemma read_xentry_spec o rest : (o < 10 ^ 10)%N ->
  read_xentry (decpad 10 o ++ bs " 00000 n " ++ 10%N :: rest) = Some (XUsed o 0, rest).
Proof.
  intros H. unfold read_xentry.
  assert (Hl : length (decpad 10 o) = 10) by (apply decpad_length; [exact H|lia]).
  pose proof (decpad_val 10 o) as Hv.
  assert (Hd : all_digits (decpad 10 o) = true) by (apply all_digits_Forall, decpad_digits).
  set (d := decpad 10 o) in *. clearbody d.
  do 10 (destruct d as [|? d]; [discriminate|]). destruct d; [|discriminate].
  cbn [firstn skipn app bs map list_ascii_of_string Ascii.N_of_ascii].
  change (bs " 00000 n ") with [32; 48; 48; 48; 48; 48; 32; 110; 32]%N.
  cbn [app skipn firstn]. rewrite Hd.
  change (all_digits [48; 48; 48; 48; 48]%N) with true. cbn [andb].
  change (110 =? 110)%N with true. cbn iota. rewrite Hv. reflexivity.
Qed.
Lemma read_xentries_spec offs rest : Forall (fun o => (o < 10 ^ 10)%N) offs ->
  read_xentries (length offs)
    (flat_map (fun o => decpad 10 o ++ bs " 00000 n " ++ [10%N]) offs ++ rest)
  = Some (map (fun o => XUsed o 0) offs, rest).
Proof.
  induction 1 as [|o offs Ho Hos IH]; [reflexivity|].
  cbn [length read_xentries flat_map map]. rewrite <- !app_assoc. cbn [app].
  rewrite read_xentry_spec by auto. rewrite IH. reflexivity.
Qed.

Definition trailer_dict (fid : bytes) (n : nat) : list (bytes * pobj) :=
  [(bs "Root", PRef 1 0); (bs "Size", PInt (Z.of_nat n + 1)); (bs "ID", PArr [PStr fid; PStr fid])].

Lemma write_trailer_read fid offs x t : Forall is_byte fid ->
  Forall (fun o => (o < 10 ^ 10)%N) offs ->
  write_trailer compress fid offs x = Ok t ->
  (forall pre, read_startxref (pre ++ t) = Some x) /\
  read_xref t = Some (XFree 0 65535 :: map (fun o => XUsed o 0) offs, trailer_dict fid (length offs)).
Proof.
  intros Hfid Hoffs H. unfold write_trailer in H.
  apply bind_ok in H as (d & Hd & H). apply Ok_inj in H; subst.
  split.
  - intros pre.
    set (A := pre ++ (bs "xref" ++ [10%N] ++ dec 0 ++ [32%N] ++ dec (N.of_nat (length offs) + 1)
      ++ [10%N] ++ bs "0000000000 65535 f " ++ [10%N]
      ++ flat_map (fun o => decpad 10 o ++ bs " 00000 n " ++ [10%N]) offs
      ++ bs "trailer" ++ [10%N] ++ d ++ [10%N])).
    pose proof (read_startxref_spec A x) as HA. rewrite <- HA. f_equal. unfold A.
    rewrite <- !app_assoc. cbn [app]. reflexivity.
  - unfold read_xref.
    match goal with |- context [strip_prefix _ (bs "xref" ++ [10%N] ++ ?y)] =>
      replace (bs "xref" ++ [10%N] ++ y) with ((bs "xref" ++ [10%N]) ++ y) by (rewrite <- app_assoc; reflexivity) end.
    rewrite strip_prefix_app.
    cbn [app]. rewrite read_nat_tok_dec by reflexivity.
    rewrite read_nat_tok_ws by reflexivity.
    replace (N.to_nat (N.of_nat (length offs) + 1)) with (S (length offs)) by lia.
    cbn [read_xentries].
    match goal with |- context [read_xentry ?l] =>
      replace (read_xentry l) with (Some (XFree 0 65535, skipn 20 l)) by reflexivity end.
    match goal with |- context [skipn 20 (?a ++ 10%N :: ?b)] =>
      change (skipn 20 (a ++ 10%N :: b)) with b end.
    rewrite read_xentries_spec by auto. cbn [option_map].
    replace (keyword "trailer" (bs "trailer" ++ 10%N :: d ++ 10%N :: bs "startxref" ++ 10%N :: dec x ++ 10%N :: bs "%%EOF" ++ [10%N]))
      with (Some (10%N :: d ++ 10%N :: bs "startxref" ++ 10%N :: dec x ++ 10%N :: bs "%%EOF" ++ [10%N])).
    2: { symmetry. unfold keyword.
         change (skip false (bs "trailer" ++ ?y)) with (bs "trailer" ++ y).
         apply strip_prefix_app. }
    set (a := ADict _) in Hd.
    assert (Hwf : wf_atom a).
    { cbn. unfold legal_name. repeat split; auto; eexists; reflexivity. }
    destruct (atom_round_trip compress a Hwf) as (w & Ew & v & Hden & Hrd).
    rewrite Hd in Ew. injection Ew as <-.
    rewrite (read_app_fuel a d 10 _ v); auto.
    2: { split; [reflexivity|]. unfold read_ref_tail.
         change (skip false (10%N :: bs "startxref" ++ ?y)) with (bs "startxref" ++ y).
         change (bs "startxref" ++ ?y) with ([115; 116; 97; 114; 116; 120; 114; 101; 102]%N ++ y).
         rewrite take_regular_app by reflexivity. reflexivity. }
    unfold a in Hden. inversion Hden as [| | | | | | | l l' HF |]; subst.
    repeat match goal with
    | H : Forall2 _ (_ :: _) _ |- _ => inversion H; clear H; subst
    | H : Forall2 _ [] _ |- _ => inversion H; clear H; subst
    | H : _ /\ _ |- _ => destruct H
    | y : (list N * pobj)%type |- _ => destruct y
    | H : denotes _ _ |- _ => cbn [fst snd] in H; inversion H; clear H; subst
    end.
    cbn [fst snd] in *.
    repeat match goal with H : decode_name (bs ?s) = Some _ |- _ =>
      vm_compute in H; injection H as <- end.
    unfold trailer_dict. reflexivity.
Qed.

(** ** The whole file *)
(** The id protocol of [write]'s comment: main objects 4, 5, ..., then 1, 2, 3. *)
Definition protocol (main : list (N * atom)) (cat pt rs : N * atom) : Prop :=
  map fst main = map (fun k => N.of_nat (4 + k)) (seq 0 (length main)) /\
  fst cat = 1%N /\ fst pt = 2%N /\ fst rs = 3%N.

Lemma mapM_app {A B} (f : A -> res B) l1 l2 ys :
  mapM f (l1 ++ l2) = Ok ys -> exists y1 y2, mapM f l1 = Ok y1 /\ mapM f l2 = Ok y2 /\ ys = y1 ++ y2.
Proof.
  revert ys; induction l1 as [|x l1 IH]; cbn [app mapM]; intros ys H.
  - exists [], ys. auto.
  - apply bind_ok in H as (y & Hy & H). apply bind_ok in H as (ys' & Hys & H). apply Ok_inj in H; subst.
    apply IH in Hys as (y1 & y2 & H1 & H2 & ->). exists (y :: y1), y2.
    rewrite Hy. cbn [bind]. rewrite H1. auto.
Qed.

Lemma mapM_length {A B} (f : A -> res B) l ys : mapM f l = Ok ys -> length ys = length l.
Proof. intros H. apply mapM_ok in H. induction H; cbn [length]; congruence. Qed.

(** Shape of a successful write. *)
Lemma write_file_shape fid objs parts :
  write_file compress fid objs = Ok parts ->
  exists chunks t n,
    parts = header :: chunks ++ [t] /\ mapM write_obj objs = Ok chunks /\
    length chunks = n + 3 /\
    write_trailer compress fid
      (map (off chunks) [n; n + 1; n + 2] ++ map (off chunks) (seq 0 n)) (off chunks (n + 3)) = Ok t.
Proof.
  unfold write_file. intros H. apply bind_ok in H as (chunks & Hc & H).
  rewrite accumulate_off in H.
  destruct (Nat.le_gt_cases 3 (length chunks)) as [Hl|Hl].
  - exists chunks. set (n := length chunks - 3).
    assert (Hn : length chunks = n + 3) by lia.
    replace (S (length chunks)) with (n + 4) in H by lia.
    rewrite seq_app, map_app, rev_app_distr in H. cbn [seq map rev app] in H.
    rewrite rev_involutive in H.
    apply bind_ok in H as (t & Ht & H). apply Ok_inj in H; subst.
    exists t, n. repeat split; auto.
    replace (0 + n) with n in Ht by lia.
    replace (S n) with (n + 1) in Ht by lia. replace (S (n + 1)) with (n + 2) in Ht by lia.
    replace (S (n + 2)) with (n + 3) in Ht by lia. exact Ht.
  - exfalso. destruct chunks as [|a [|b [|c chunks]]]; cbn [length] in Hl; try lia; discriminate H.
Qed.

Lemma write_file_ok fid main cat pt rs parts :
  write_file compress fid (main ++ [cat; pt; rs]) = Ok parts ->
  exists chunks t cc cp cr,
    parts = header :: (chunks ++ [cc; cp; cr]) ++ [t] /\
    mapM write_obj main = Ok chunks /\ write_obj cat = Ok cc /\ write_obj pt = Ok cp /\
    write_obj rs = Ok cr /\
    write_trailer compress fid
      (map (off (chunks ++ [cc; cp; cr])) [length chunks; length chunks + 1; length chunks + 2]
       ++ map (off (chunks ++ [cc; cp; cr])) (seq 0 (length chunks)))
      (off (chunks ++ [cc; cp; cr]) (length chunks + 3)) = Ok t.
Proof.
  intros H. apply write_file_shape in H as (all & t & n & -> & Hm & Hl & Ht).
  apply mapM_app in Hm as (chunks & last & H1 & H2 & ->).
  cbn [mapM] in H2.
  apply bind_ok in H2 as (cc & Hcc & H2). apply bind_ok in H2 as (l2 & H2 & E). injection E as <-.
  apply bind_ok in H2 as (cp & Hcp & H2). apply bind_ok in H2 as (l3 & H2 & E). injection E as <-.
  apply bind_ok in H2 as (cr & Hcr & H2). injection H2 as <-.
  rewrite app_length in Hl. cbn [length] in Hl. assert (n = length chunks) by lia. subst n.
  exists chunks, t, cc, cp, cr. auto 10.
Qed.

Lemma read_objects_used f start offs os objs :
  length offs = length objs ->
  (forall k o ob, nth_error offs k = Some o -> nth_error objs k = Some ob ->
     fst ob = (start + N.of_nat k)%N /\
     exists v data, read_indirect (at_offset o f) = Some (fst ob, 0%N, v, data) /\
                    obj_reads ob (fst ob, v, data)) ->
  os = objs ->
  exists rs, read_objects f start (map (fun o => XUsed o 0) offs) = Some rs /\ Forall2 obj_reads os rs.
Proof.
  intros Hl H ->. revert start objs Hl H.
  induction offs as [|o offs IH]; intros start [|ob objs] Hl H; try discriminate.
  - exists []. split; [reflexivity|constructor].
  - destruct (H 0 o ob eq_refl eq_refl) as (Hid & v & data & Hr & Ho).
    destruct (IH (start + 1)%N objs) as (rs & Hrs & HF).
    + cbn [length] in Hl. lia.
    + intros k o' ob' H1 H2. destruct (H (S k) o' ob' H1 H2) as (Hid' & Hx). split; [lia|exact Hx].
    + cbn [map read_objects]. rewrite Hr, Hid.
      replace (start + N.of_nat 0 =? start)%N with true by lia.
      change (0 =? 0)%N with true. cbn [andb]. rewrite Hrs.
      eexists. split; [reflexivity|]. constructor; auto.
      rewrite <- Hid. exact Ho.
Qed.

Theorem file_round_trip fid main cat pt rs parts :
  protocol main cat pt rs ->
  Forall (fun o => ok_object (snd o)) (main ++ [cat; pt; rs]) ->
  Forall is_byte fid ->
  write_file compress fid (main ++ [cat; pt; rs]) = Ok parts ->
  let file := List.concat parts in
  (N.of_nat (length file) < 10 ^ 10)%N ->
  exists read_objs,
    read_file file = Some (read_objs, trailer_dict fid (length main + 3)) /\
    Forall2 obj_reads (cat :: pt :: rs :: main) read_objs.
Proof.
  intros (Hids & Hc1 & Hp2 & Hr3) Hok Hfid H file Hsize.
  apply write_file_ok in H as (chunks & t & cc & cp & cr & -> & Hm & Hcc & Hcp & Hcr & Ht).
  set (all := chunks ++ [cc; cp; cr]) in *.
  pose proof (mapM_length _ _ _ Hm) as Hlm.
  assert (Hla : length all = length chunks + 3) by (unfold all; rewrite app_length; reflexivity).
  assert (Hoffb : forall k, (off all k < 10 ^ 10)%N).
  { intros k. eapply N.le_lt_trans; [|exact Hsize]. unfold off, file.
    cbn [List.concat]. rewrite concat_app, !app_length.
    rewrite <- (firstn_skipn k all) at 2. rewrite concat_app, app_length. lia. }
  set (offs := map (off all) [length chunks; length chunks + 1; length chunks + 2]
       ++ map (off all) (seq 0 (length chunks))) in *.
  assert (Hlo : length offs = length main + 3).
  { unfold offs. rewrite app_length, !map_length, seq_length. cbn [length]. lia. }
  assert (Hob : Forall (fun o => (o < 10 ^ 10)%N) offs).
  { unfold offs. apply Forall_app. split; apply Forall_forall; intros o Ho;
      apply in_map_iff in Ho as (k & <- & _); apply Hoffb. }
  destruct (write_trailer_read fid offs _ t Hfid Hob Ht) as [Hsx Hxr].
  unfold read_file.
  assert (Hfile : file = List.concat (header :: all) ++ t).
  { unfold file. cbn [List.concat]. rewrite concat_app. cbn [List.concat].
    rewrite app_nil_r, app_assoc. reflexivity. }
  rewrite Hfile, Hsx, <- Hfile.
  assert (Hend : at_offset (off all (length chunks + 3)) file = t).
  { rewrite <- Hla. unfold file. apply at_off_end. }
  rewrite Hend, Hxr. cbn [read_objects].
  assert (Hchunk : forall k c, nth_error all k = Some c ->
     exists rest, at_offset (off all k) file = c ++ rest).
  { intros k c Hk. eexists. unfold file. rewrite (at_off all t k c Hk). reflexivity. }
  apply mapM_ok in Hm.
  assert (Hrd : forall ob c k, ok_object (snd ob) -> write_obj ob = Ok c -> nth_error all k = Some c ->
    exists v data, read_indirect (at_offset (off all k) file) = Some (fst ob, 0%N, v, data) /\
                   obj_reads ob (fst ob, v, data)).
  { intros ob c k Ho Hw Hk. destruct (Hchunk k c Hk) as (rest & ->). apply read_indirect_obj; auto. }
  apply Forall_app in Hok as [Hokm Hok3].
  pose proof (Forall_inv Hok3) as Hokc. pose proof (Forall_inv_tail Hok3) as Hok4.
  pose proof (Forall_inv Hok4) as Hokp. pose proof (Forall_inv (Forall_inv_tail Hok4)) as Hokr.
  cbn beta in Hokc, Hokp, Hokr.
  destruct (read_objects_used file (0 + 1) offs (cat :: pt :: rs :: main) (cat :: pt :: rs :: main))
    as (robjs & Hro & HF); auto.
  - cbn [length]. lia.
  - intros k o ob Hk Hb.
    destruct k as [|[|[|k]]]; cbn [nth_error offs map app] in Hk, Hb; unfold offs in Hk; cbn [map app nth_error] in Hk.
    + injection Hk as <-. injection Hb as <-. split; [lia|]. apply (Hrd cat cc); auto.
      unfold all. rewrite nth_error_app2, Nat.sub_diag by lia. reflexivity.
    + injection Hk as <-. injection Hb as <-. split; [lia|]. apply (Hrd pt cp); auto.
      unfold all. rewrite nth_error_app2 by lia. replace (length chunks + 1 - length chunks) with 1 by lia. reflexivity.
    + injection Hk as <-. injection Hb as <-. split; [lia|]. apply (Hrd rs cr); auto.
      unfold all. rewrite nth_error_app2 by lia. replace (length chunks + 2 - length chunks) with 2 by lia. reflexivity.
    + assert (Hkl : k < length main) by (apply nth_error_Some; congruence).
      rewrite nth_error_map in Hk.
      assert (Hs : nth_error (seq 0 (length chunks)) k = Some k).
      { rewrite (nth_error_nth' _ 0) by (rewrite seq_length; lia). rewrite seq_nth by lia. reflexivity. }
      rewrite Hs in Hk. cbn [option_map] in Hk. injection Hk as <-.
      split.
      * assert (Hi : nth_error (map fst main) k = Some (fst ob)) by (rewrite nth_error_map, Hb; reflexivity).
        rewrite Hids, nth_error_map in Hi.
        rewrite (nth_error_nth' _ 0) in Hi by (rewrite seq_length; lia).
        rewrite seq_nth in Hi by lia. cbn [option_map] in Hi. injection Hi as Hi. lia.
      * destruct (nth_error chunks k) as [c|] eqn:Hck.
        2: { apply nth_error_None in Hck. lia. }
        assert (Hwc : write_obj ob = Ok c).
        { clear -Hm Hb Hck. revert k Hb Hck. induction Hm; intros [|k] Hb Hck; try discriminate.
          - cbn in Hb, Hck. congruence.
          - cbn in Hb, Hck. eauto. }
        apply (Hrd ob c); auto.
        -- rewrite Forall_forall in Hokm. apply Hokm. eapply nth_error_In; eauto.
        -- unfold all. rewrite nth_error_app1 by lia. exact Hck.
  - rewrite Hro. cbn [option_map]. rewrite Hlo. exists robjs. split; auto.
Qed.

(** Table entries point at "i 0 obj". *)
Theorem xref_offsets fid main cat pt rs parts :
  protocol main cat pt rs ->
  Forall is_byte fid ->
  write_file compress fid (main ++ [cat; pt; rs]) = Ok parts ->
  let file := List.concat parts in
  (N.of_nat (length file) < 10 ^ 10)%N ->
  exists x entries tr,
    read_startxref file = Some x /\
    strip_prefix (bs "xref" ++ [10%N]) (at_offset x file) <> None /\
    read_xref (at_offset x file) = Some (entries, tr) /\
    length entries = length main + 4 /\
    nth_error entries 0 = Some (XFree 0 65535) /\
    forall i, 0 < i < length entries -> exists o rest,
      nth_error entries i = Some (XUsed o 0) /\
      at_offset o file = dec (N.of_nat i) ++ bs " 0 obj" ++ 10%N :: rest.
Proof.
  intros (Hids & Hc1 & Hp2 & Hr3) Hfid H file Hsize.
  apply write_file_ok in H as (chunks & t & cc & cp & cr & -> & Hm & Hcc & Hcp & Hcr & Ht).
  set (all := chunks ++ [cc; cp; cr]) in *.
  pose proof (mapM_length _ _ _ Hm) as Hlm.
  assert (Hla : length all = length chunks + 3) by (unfold all; rewrite app_length; reflexivity).
  assert (Hoffb : forall k, (off all k < 10 ^ 10)%N).
  { intros k. eapply N.le_lt_trans; [|exact Hsize]. unfold off, file.
    cbn [List.concat]. rewrite concat_app, !app_length.
    rewrite <- (firstn_skipn k all) at 2. rewrite concat_app, app_length. lia. }
  set (offs := map (off all) [length chunks; length chunks + 1; length chunks + 2]
       ++ map (off all) (seq 0 (length chunks))) in *.
  assert (Hlo : length offs = length main + 3).
  { unfold offs. rewrite app_length, !map_length, seq_length. cbn [length]. lia. }
  assert (Hob : Forall (fun o => (o < 10 ^ 10)%N) offs).
  { unfold offs. apply Forall_app. split; apply Forall_forall; intros o Ho;
      apply in_map_iff in Ho as (k & <- & _); apply Hoffb. }
  destruct (write_trailer_read fid offs _ t Hfid Hob Ht) as [Hsx Hxr].
  assert (Hfile : file = List.concat (header :: all) ++ t).
  { unfold file. cbn [List.concat]. rewrite concat_app. cbn [List.concat].
    rewrite app_nil_r, app_assoc. reflexivity. }
  exists (off all (length chunks + 3)), (XFree 0 65535 :: map (fun o => XUsed o 0) offs),
    (trailer_dict fid (length offs)).
  assert (Hend : at_offset (off all (length chunks + 3)) file = t).
  { rewrite <- Hla. unfold file. apply at_off_end. }
  rewrite Hend. split; [rewrite Hfile; apply Hsx|].
  split.
  { unfold read_xref in Hxr. destruct (strip_prefix _ t); [discriminate|congruence]. }
  split; [exact Hxr|].
  split; [cbn [length]; rewrite map_length; lia|]. split; [reflexivity|].
  intros i Hi. destruct i as [|i]; [lia|]. cbn [nth_error].
  cbn [length] in Hi. rewrite map_length in Hi.
  assert (Hobj : forall ob c k, write_obj ob = Ok c -> nth_error all k = Some c ->
    exists rest, at_offset (off all k) file = dec (fst ob) ++ bs " 0 obj" ++ 10%N :: rest).
  { intros ob c k Hw Hk. unfold file. rewrite (at_off all t k c Hk).
    unfold Atoms.write_obj in Hw. apply bind_ok in Hw as (w & _ & Hw). apply Ok_inj in Hw. rewrite <- Hw.
    eexists. rewrite <- !app_assoc. cbn [app]. reflexivity. }
  apply mapM_ok in Hm.
  unfold offs.
  destruct i as [|[|[|i]]]; cbn [map app nth_error].
  - destruct (Hobj cat cc (length chunks) Hcc) as (rest & E).
    { unfold all. rewrite nth_error_app2, Nat.sub_diag by lia. reflexivity. }
    rewrite Hc1 in E. eauto.
  - destruct (Hobj pt cp (length chunks + 1) Hcp) as (rest & E).
    { unfold all. rewrite nth_error_app2 by lia. replace (length chunks + 1 - length chunks) with 1 by lia. reflexivity. }
    rewrite Hp2 in E. eauto.
  - destruct (Hobj rs cr (length chunks + 2) Hcr) as (rest & E).
    { unfold all. rewrite nth_error_app2 by lia. replace (length chunks + 2 - length chunks) with 2 by lia. reflexivity. }
    rewrite Hr3 in E. eauto.
  - assert (Hik : i < length main) by lia.
    rewrite nth_error_map, nth_error_map.
    rewrite (nth_error_nth' _ 0) by (rewrite seq_length; lia). rewrite seq_nth by lia.
    cbn [option_map].
    destruct (nth_error chunks i) as [c|] eqn:Hck.
    2: { apply nth_error_None in Hck. lia. }
    destruct (nth_error main i) as [ob|] eqn:Hbk.
    2: { apply nth_error_None in Hbk. lia. }
    assert (Hwc : write_obj ob = Ok c).
    { clear -Hm Hbk Hck. revert i Hbk Hck. induction Hm; intros [|k] Hb Hck; try discriminate.
      - cbn in Hb, Hck. congruence.
      - cbn in Hb, Hck. eauto. }
    destruct (Hobj ob c i Hwc) as (rest & E).
    { unfold all. rewrite nth_error_app1 by lia. exact Hck. }
    assert (Hid : nth_error (map fst main) i = Some (fst ob)) by (rewrite nth_error_map, Hbk; reflexivity).
    rewrite Hids, nth_error_map in Hid.
    rewrite (nth_error_nth' _ 0) in Hid by (rewrite seq_length; lia).
    rewrite seq_nth in Hid by lia. cbn [option_map] in Hid. injection Hid as Hid.
    replace (N.of_nat (S (S (S (S i))))) with (fst ob) by lia.
    cbn [Nat.add]. eauto.
Qed.

(** Files of 10^10 bytes or more: an offset no longer fits its ten digits. *)
End F.
