(** * Documents: C08-C13, C63, C64 *)
From Coq Require Import String QArith Qcanon.
From Verif Require Import Base Gfmt Atoms PdfSpec GfmtProofs AtomsProofs FileProofs FontProofs Num Fonts State Style Words Parse Render Firstfit KnuthPlass
  Optimum Common Draw Layout LayoutSpec FontsUsed WordOps Document DocumentSpec DocumentProofs
  Properties_Fonts Properties_Words Properties_Text Properties_Layout.
Local Open Scope list_scope.
Open Scope nat_scope.

#[local] Existing Instance ex_words.
(** ** An example: automatic pages, a page with an embedded font, automatic pages *)
Definition ex_embedded : typeface := TTrue 1 2 3 4.
Definition ex_content : list (@drawing QcNum) :=
  [DText ex_loc [IStr (str_of "Hi"); ISpan (@mkStyle QcNum (Some ex_embedded) None None None None None None) [IStr (str_of "you")]] style_empty ALeft;
   DRect ex_loc (Q2Qc 10) (Q2Qc 20) None (Some (@mkRGB QcNum 0%Qc 0%Qc 1%Qc))].
Definition ex_page : @page QcNum (@drawing QcNum) := mkPage ex_content (@A4 QcNum) 90 (pg_columns (@default_page QcNum)).
Definition ex_items : list (@ditem QcNum) :=
  [DAuto (map (@BPara QcNum) ex_ps) ex_template; DPage ex_page;
   DAuto [@BRule QcNum (@mkRGB QcNum 0%Qc 0%Qc 0%Qc) (mkSides n0 n0 n0 n0); BPara (par ex_styled false)] ex_template].
Definition ex_ttfs : font -> ttf := fun _ => ex_ttf.
Definition ex_objs := doc_objects 100 ex_ttfs ex_items full_default.
Definition is_finished (e : ending) : bool := match e with Finished => true | _ => false end.
Lemma ex_finished : ex_objs = (fst ex_objs, Finished).
Proof. assert (H : is_finished (snd ex_objs) = true) by (vm_compute; reflexivity). destruct ex_objs as [o []]; try discriminate H. reflexivity. Qed.

(** ** C08.  Writing a document without content raises the error about missing pages (and
    writes nothing but the header); no other document raises it. *)
Theorem C08_no_pages : forall (NUM : Num) (ENV : Env NUM) compress fuel ttf_of items sty fid,
  (items = [] -> write_iter compress fuel ttf_of items sty fid = ([header], NoPages))
  /\ (items <> [] -> snd (write_iter compress fuel ttf_of items sty fid) <> NoPages).
Proof.
  intros NUM ENV compress fuel ttf_of items sty fid. split; [intros ->; reflexivity|]. intros NE E.
  apply write_gen_nopages in E. unfold doc_objects in E.
  destruct (pages_gen fuel (full_or full_default sty) items 0) as [ys e] eqn:P. cbn [fst snd] in E.
  destruct (page_objects _ ys 4 [] []) as [po e2]. cbn [fst snd] in E. destruct e2 as [[R cs]|]; [|discriminate]. destruct e; [discriminate|].
  destruct (List.length ys) eqn:L.
  - destruct ys; [|discriminate]. apply NE. apply (pages_gen_nonempty fuel (full_or full_default sty) items 0 [] P). reflexivity.
  - destruct (font_objects _ _ _) as [x [y|]]; discriminate.
Qed.
Print Assumptions C08_no_pages.
Example C08_example : ex_items <> [] /\ snd ex_objs = Finished.
Proof. split; [discriminate|]. vm_compute. reflexivity. Qed.

(** ** C09.  Object ids: 4, 5, ..., then 1, 2, 3; none twice.  There are two objects for
    each page and seven for each embedded font. *)
Theorem C09_object_ids : forall (NUM : Num) (ENV : Env NUM) fuel ttf_of items base objs,
  doc_objects fuel ttf_of items base = (objs, Finished) ->
  exists pages embedded, laid fuel base items 0 pages /\ NoDup embedded /\ Forall (fun f => is_builtin f = false) embedded
  /\ map fst objs = count_up 4 (2 * List.length pages + 7 * List.length embedded) ++ [1; 2; 3]%N
  /\ NoDup (map fst objs).
Proof.
  intros NUM ENV fuel ttf_of items base objs E. destruct (doc_finished _ _ _ _ _ E) as (pages & R & cs & bs & fos & H).
  exists pages, (subsets_of R). split; [apply H|]. split; [apply NoDup_filter, H|]. split.
  { apply Forall_forall. intros f I. apply filter_In in I as [_ I]. apply negb_true_iff, I. }
  rewrite (all_ids _ _ _ _ _ _ _ _ _ _ H). split; [reflexivity|apply ids_nodup].
Qed.
Print Assumptions C09_object_ids.
Example C09_example : snd ex_objs = Finished /\ map fst (fst ex_objs) = count_up 4 (2 * 10 + 7 * 1) ++ [1; 2; 3]%N.
Proof. split; vm_compute; reflexivity. Qed.
(** Therefore the cross-reference table of every document written (of less than 10^10
    bytes) is right: entry i is the offset of "i 0 obj". *)
Theorem C09_C06_document_xref : forall (NUM : Num) (ENV : Env NUM) compress fuel ttf_of items sty fid parts,
  Forall is_byte fid -> write_iter compress fuel ttf_of items sty fid = (parts, Finished) ->
  let file := List.concat parts in
  (N.of_nat (List.length file) < 10 ^ 10)%N ->
  exists x entries tr objs, doc_objects fuel ttf_of items (full_or full_default sty) = (objs, Finished)
    /\ read_startxref file = Some x /\ read_xref (at_offset x file) = Some (entries, tr)
    /\ List.length entries = List.length objs + 1
    /\ forall i, 0 < i < List.length entries -> exists o rest,
      nth_error entries i = Some (XUsed o 0) /\
      at_offset o file = dec (N.of_nat i) ++ bs " 0 obj" ++ 10%N :: rest.
Proof.
  intros NUM ENV compress fuel ttf_of items sty fid parts FB W file SZ. unfold write_iter in W.
  apply write_gen_ok in W as (E & W). destruct (doc_objects fuel ttf_of items _) as [objs e]  eqn:D. cbn [fst snd] in *. subst e.
  destruct (doc_finished _ _ _ _ _ D) as (pages & R & cs & bs & fos & H).
  pose proof (main_ids _ _ _ _ _ _ _ _ _ _ H) as MI. pose proof (fi_objs _ _ _ _ _ _ _ _ _ _ H) as O. unfold headers in O. rewrite app_assoc in O.
  rewrite O in W. eapply xref_offsets in W as (x & entries & tr & H1 & H2 & H3 & H4 & H5 & H6).
  - exists x, entries, tr, objs. split; [reflexivity|]. split; [exact H1|]. split; [exact H3|]. split; [rewrite H4, O, (app_length _ [_;_;_]); cbn [List.length]; lia|exact H6].
  - repeat split. rewrite MI. unfold count_up. apply (f_equal (@List.length _)) in MI. unfold count_up in MI. rewrite !map_length, seq_length in MI.
    rewrite MI. rewrite <- (seq_shift_n 4). apply map_map.
  - exact FB.
  - exact SZ.
Qed.
Print Assumptions C09_C06_document_xref.

(** ** C10.  Every reference in an object of a document is to an object of the document;
    so is the trailer's (to 1, see C06/C07). *)
Theorem C10_references : forall (NUM : Num) (ENV : Env NUM) fuel ttf_of items base objs,
  doc_objects fuel ttf_of items base = (objs, Finished) ->
  (forall o x, In o objs -> In x (refs (snd o)) -> In x (map fst objs)) /\ In 1%N (map fst objs).
Proof.
  intros NUM ENV fuel ttf_of items base objs E. destruct (doc_finished _ _ _ _ _ E) as (pages & R & cs & bs & fos & H).
  split; [eapply all_refs; exact H|]. rewrite (all_ids _ _ _ _ _ _ _ _ _ _ H). apply in_or_app. right. left. reflexivity.
Qed.
Print Assumptions C10_references.
Example C10_example : snd ex_objs = Finished
  /\ map (fun o => (fst o, refs (snd o))) (skipn 18 (fst ex_objs))
     = [(22, [2; 23; 3]); (23, []); (24, [25; 26]); (25, [27; 28; 29]); (26, []); (27, []); (28, [30]); (29, []); (30, []);
        (1, [2]); (2, [4; 6; 8; 10; 12; 14; 16; 18; 20; 22]); (3, [24])]%N.
Proof. split; vm_compute; reflexivity. Qed.

(** ** C11.  The catalog, the page tree and the pages. *)
Theorem C11_page_tree : forall (NUM : Num) (ENV : Env NUM) fuel ttf_of items base objs,
  doc_objects fuel ttf_of items base = (objs, Finished) ->
  exists pages R, laid fuel base items 0 pages /\ pages <> []
  /\ object objs 1 (ADict [(bs "Type", AName (bs "Catalog")); (bs "Pages", ARef 2)])
  /\ object objs 2 (ADict [(bs "Type", AName (bs "Pages"));
                           (bs "Kids", AArr (map (fun k => ARef (N.of_nat (4 + 2 * k))) (seq 0 (List.length pages))));
                           (bs "Count", AInt (Z.of_nat (List.length pages)))])
  /\ forall k p extra, nth_error pages k = Some (p, extra) ->
     let zero := AReal (Some (0 # 1)%Q) in
     object objs (N.of_nat (4 + 2 * k))
       (ADict [(bs "Type", AName (bs "Page")); (bs "Parent", ARef 2);
               (bs "MediaBox", AArr [zero; zero; AReal (nto_Q (px (pg_size p))); AReal (nto_Q (py (pg_size p)))]);
               (bs "Contents", ARef (N.of_nat (5 + 2 * k))); (bs "Resources", ARef 3);
               (bs "Rotate", AInt (pg_rotate p))])
     /\ exists ops chunks cs cs', page_ops base (p, extra) = Ok ops /\ ops_bytes R ops cs = Ok (chunks, cs')
        /\ object objs (N.of_nat (5 + 2 * k)) (AStream chunks []).
Proof.
  intros NUM ENV fuel ttf_of items base objs E. destruct (doc_finished _ _ _ _ _ E) as (pages & R & cs & bs & fos & H).
  assert (ND : NoDup (map fst objs)) by (rewrite (all_ids _ _ _ _ _ _ _ _ _ _ H); apply ids_nodup).
  exists pages, R. split; [apply H|]. split; [apply H|]. pose proof (fi_objs _ _ _ _ _ _ _ _ _ _ H) as O.
  split; [|split].
  - apply nodup_fst_object; [exact ND|]. rewrite O. apply in_or_app. right. apply in_or_app. right. left. reflexivity.
  - apply nodup_fst_object; [exact ND|]. rewrite O. apply in_or_app. right. apply in_or_app. right. right. left.
    change 4%N with (N.of_nat 4). rewrite page_ids_spec, map_map. reflexivity.
  - intros k p extra K zero. destruct (page_nth R base pages [] bs cs (fi_streams _ _ _ _ _ _ _ _ _ _ H) 4 k (p, extra) K)
      as (ops & b & c1 & c2 & P & F & B & I1 & I2).
    split.
    + apply nodup_fst_object; [exact ND|]. rewrite O. apply in_or_app. left.
      replace (N.of_nat (5 + 2 * k)) with (N.of_nat (4 + 2 * k) + 1)%N by lia. exact I1.
    + exists ops, b, c1, c2. split; [exact P|]. split; [exact B|]. apply nodup_fst_object; [exact ND|]. rewrite O. apply in_or_app. left.
      replace (N.of_nat (5 + 2 * k)) with (N.of_nat (4 + 2 * k) + 1)%N by lia. exact I2.
Qed.
Print Assumptions C11_page_tree.
Example C11_example : snd ex_objs = Finished
  /\ map (fun o => (fst o, get "Rotate" (snd o), get "Contents" (snd o))) (firstn 4 (skipn 12 (fst ex_objs)))
     = [(16, Some (AInt 0), Some (ARef 17)); (17, None, None); (18, Some (AInt 90), Some (ARef 19)); (19, None, None)]%N.
Proof. split; vm_compute; reflexivity. Qed.

(** ** C12.  Page numbers: the k-th page of the document (from 1), if it comes from an
    automatic page with template t, is built on t(k). *)
Theorem C12_page_numbers : forall (NUM : Num) (ENV : Env NUM) fuel ttf_of items base objs,
  doc_objects fuel ttf_of items base = (objs, Finished) ->
  exists pages counts, laid fuel base items 0 pages
  /\ Forall2 item_count items counts /\ map fst pages = built_on items counts 0.
Proof.
  intros NUM ENV fuel ttf_of items base objs E. destruct (doc_finished _ _ _ _ _ E) as (pages & R & cs & bs & fos & H).
  destruct (laid_built _ _ _ _ _ (fi_laid _ _ _ _ _ _ _ _ _ _ H)) as (counts & F & B). exists pages, counts. split; [apply H|]. auto.
Qed.
Print Assumptions C12_page_numbers.
Example C12_example : snd ex_objs = Finished
  /\ built_on ex_items [7; 1; 2] 0
     = map (fun k => ex_template k) [1; 2; 3; 4; 5; 6; 7]%Z ++ [ex_page] ++ [ex_template 9; ex_template 10].
Proof. split; [vm_compute|]; reflexivity. Qed.

(** ** C13.  Every font selected on a page has an entry in the font dictionary, and all
    entries under its name are resources for this font. *)
Theorem C13_fonts_declared : forall (NUM : Num) (ENV : Env NUM) fuel ttf_of items base objs,
  doc_objects fuel ttf_of items base = (objs, Finished) ->
  exists pages entries, laid fuel base items 0 pages
  /\ object objs 3 (ADict [(bs "Font", ADict entries)])
  /\ forall k p ops, nth_error pages k = Some p -> page_ops base p = Ok ops ->
     exists chunks, object objs (N.of_nat (5 + 2 * k)) (AStream chunks [])
     /\ forall f z, In (OTf f z) ops -> exists name,
          In (bs "/" ++ name ++ bs " " ++ fmt_num z ++ bs " Tf" ++ [10%N]) chunks
          /\ (exists a, In (name, a) entries)
          /\ forall a, In (name, a) entries -> describes objs ttf_of f a.
Proof.
  intros NUM ENV fuel ttf_of items base objs E. destruct (doc_finished _ _ _ _ _ E) as (pages & R & cs & bs & fos & H).
  assert (ND : NoDup (map fst objs)) by (rewrite (all_ids _ _ _ _ _ _ _ _ _ _ H); apply ids_nodup).
  pose proof (fi_objs _ _ _ _ _ _ _ _ _ _ H) as O. set (first := first_font_id (List.length pages)) in *.
  exists pages, (font_resources R first). split; [apply H|]. split.
  { apply nodup_fst_object; [exact ND|]. rewrite O. apply in_or_app. right. apply in_or_app. right. right. right. left. reflexivity. }
  intros k p ops K P. destruct (page_nth R base pages [] bs cs (fi_streams _ _ _ _ _ _ _ _ _ _ H) 4 k p K) as (ops' & b & c1 & c2 & P' & F & B & _ & I2).
  rewrite P in P'. apply Ok_inj in P'. subst ops'. exists b. split.
  { apply nodup_fst_object; [exact ND|]. rewrite O. apply in_or_app. left.
    replace (N.of_nat (5 + 2 * k)) with (N.of_nat (4 + 2 * k) + 1)%N by lia. exact I2. }
  intros f z I. exists (font_id R f). split; [eapply tf_chunk; eassumption|].
  assert (FR : In f R).
  { unfold ops_in in F. rewrite Forall_forall in F. apply (F _ I). }
  destruct (font_entries R first f FR) as (X & Y). split; [exact X|]. intros a J. specialize (Y a J). unfold font_entry in Y.
  unfold describes. destruct (is_builtin f) eqn:BF.
  - subst a. destruct f as [[bb|] x y]; [|discriminate]. repeat split.
  - unfold is_builtin in BF. destruct (f_face f); [discriminate|]. destruct Y as (m & NM & ->).
    rewrite O. rewrite O in ND. eexists. split; [reflexivity|]. eapply embedded_objects; [exact ND|apply (fi_fonts _ _ _ _ _ _ _ _ _ _ H)|exact NM].
Qed.
Print Assumptions C13_fonts_declared.

Definition ex_tfs (o : @op QcNum) : list font := match o with OTf f _ => [f] | _ => [] end.
Example C13_example : snd ex_objs = Finished
  /\ rmap (flat_map ex_tfs) (page_ops full_default (ex_page, []))
     = Ok [mkFont (TBuiltin Helvetica) false false; mkFont ex_embedded false false]
  /\ option_map (fun o => match get "Font" (snd o) with Some (ADict l) => map fst l | _ => [] end)
       (find (fun o => (fst o =? 3)%N) (fst ex_objs)) = Some (map bs ["f0"; "f1"; "F0"]%string).
Proof. split; [|split]; vm_compute; reflexivity. Qed.
(** Keys of the font dictionary are different, except that Symbol and ZapfDingbats may
    occur more than once (with the same value). *)
Theorem C13_keys_partial : forall (NUM : Num) (ENV : Env NUM) fuel ttf_of items base objs,
  doc_objects fuel ttf_of items base = (objs, Finished) ->
  exists entries, object objs 3 (ADict [(bs "Font", ADict entries)])
  /\ forall l1 name a l2 b l3, entries = l1 ++ (name, a) :: l2 ++ (name, b) :: l3 ->
     a = b /\ (name = bs "f12" \/ name = bs "f13").
Proof.
  intros NUM ENV fuel ttf_of items base objs E. destruct (doc_finished _ _ _ _ _ E) as (pages & R & cs & bs & fos & H).
  exists (font_resources R (first_font_id (List.length pages))). split.
  - apply nodup_fst_object; [rewrite (all_ids _ _ _ _ _ _ _ _ _ _ H); apply ids_nodup|]. rewrite (fi_objs _ _ _ _ _ _ _ _ _ _ H).
    apply in_or_app. right. apply in_or_app. right. right. right. left. reflexivity.
  - intros. eapply font_duplicates; [apply (fi_nodup _ _ _ _ _ _ _ _ _ _ H)|eassumption].
Qed.
Print Assumptions C13_keys_partial.
(** They do: Text with regular and bold Symbol. *)
Definition sty_symbol : @style QcNum := @mkStyle QcNum (Some (TBuiltin Symbol)) None None None None None None.
Definition ex_symbols : list (@ditem QcNum) :=
  [DPage (mkPage [DText ex_loc [IStr (str_of "a"); ISpan sty_bold [IStr (str_of "b")]] sty_symbol ALeft] (@A4 QcNum) 0 (pg_columns (@default_page QcNum)))].
Definition ex_symbol_objs := doc_objects 0 ex_ttfs ex_symbols full_default.
Theorem C13_keys_refuted :
  exists objs entries, doc_objects 0 ex_ttfs ex_symbols full_default = (objs, Finished)
  /\ In (3%N, ADict [(bs "Font", ADict entries)]) objs /\ map fst entries = [bs "f0"; bs "f12"; bs "f12"].
Proof.
  assert (H : is_finished (snd ex_symbol_objs) = true) by (vm_compute; reflexivity).
  exists (fst ex_symbol_objs), (font_resources [mkFont (TBuiltin Helvetica) false false; mkFont (TBuiltin Symbol) false false; mkFont (TBuiltin Symbol) true false] 6).
  split; [|split; [|reflexivity]].
  - fold ex_symbol_objs. destruct ex_symbol_objs as [o []]; try discriminate H. reflexivity.
  - apply nth_error_In with (n := 4). vm_compute. reflexivity.
Qed.
Print Assumptions C13_keys_refuted.

(** ** C63.  The bytes written to a path or a file are those of the iterator, whether
    writing succeeds or fails; nothing else is changed. *)
Theorem C63_same_bytes : forall (NUM : Num) (ENV : Env NUM) compress fuel ttf_of items sty fid,
  let g := write_iter compress fuel ttf_of items sty fid in
  (forall file, write_fileobj file g = (file ++ concat (fst g), snd g))
  /\ forall fs p, exists fs', write_path fs p g = (fs', snd g) /\ fs' p = Some (concat (fst g)) /\ forall q, q <> p -> fs' q = fs q.
Proof.
  intros NUM ENV compress fuel ttf_of items sty fid g.
  assert (W : forall l (file : bytes), fold_left (fun f c => f ++ c) l file = file ++ concat l).
  { induction l as [|c l IH]; intros file; cbn [fold_left concat]; [rewrite app_nil_r; reflexivity|]. rewrite IH, app_assoc. reflexivity. }
  split.
  - intros file. unfold write_fileobj, writelines. rewrite W. reflexivity.
  - intros fs p. unfold write_path. eexists. split; [reflexivity|]. unfold fs_set, path_eqb, writelines. cbn [fst].
    split.
    + destruct (list_eq_dec N.eq_dec p p) as [_|N]; [|congruence]. rewrite W. reflexivity.
    + intros q N. destruct (list_eq_dec N.eq_dec p q) as [E|_]; [congruence|reflexivity].
Qed.
Print Assumptions C63_same_bytes.

(** ** C64.  A failed write does not leave an existing file intact: writing an empty
    document leaves just the header. *)
Theorem C64_failed_write_refuted : forall (NUM : Num) (ENV : Env NUM) compress fuel ttf_of sty fid (fs : filesystem) p old,
  fs p = Some old -> snd (write_path fs p (write_iter compress fuel ttf_of [] sty fid)) = NoPages
  /\ fst (write_path fs p (write_iter compress fuel ttf_of [] sty fid)) p = Some header.
Proof.
  intros NUM ENV compress fuel ttf_of sty fid fs p old _. split; [reflexivity|].
  destruct (C63_same_bytes NUM ENV compress fuel ttf_of [] sty fid) as (_ & W). destruct (W fs p) as (fs' & E & F & _).
  rewrite E. cbn [fst]. exact F.
Qed.
Print Assumptions C64_failed_write_refuted.
(** Neither does any other: whatever fails, and wherever, the old file is replaced by the
    header and the objects written up to then; only the other files are intact. *)
Theorem C64_every_failure_refuted : forall (NUM : Num) (ENV : Env NUM) compress fuel ttf_of items sty fid (fs : filesystem) p,
  let w := write_path fs p (write_iter compress fuel ttf_of items sty fid) in
  snd w <> Finished ->
  (exists written, fst w p = Some (header ++ concat written)) /\ forall q, q <> p -> fst w q = fs q.
Proof.
  intros NUM ENV compress fuel ttf_of items sty fid fs p w _.
  destruct (C63_same_bytes NUM ENV compress fuel ttf_of items sty fid) as (_ & W). destruct (W fs p) as (fs' & E & F & O).
  unfold w. rewrite E. cbn [fst]. split; [|exact O]. rewrite F. clear.
  unfold write_iter, write_gen. set (x := chunks_gen _ _ _). clearbody x. destruct x as [l e]. cbn [fst snd].
  destruct e; try (exists l; reflexivity).
  destruct (rev _) as [|a [|b [|c [|d r]]]]; try (exists l; reflexivity).
  destruct (write_trailer _ _ _ _) as [t|e]; [exists (l ++ [t]); reflexivity|exists l; reflexivity].
Qed.
Print Assumptions C64_every_failure_refuted.
