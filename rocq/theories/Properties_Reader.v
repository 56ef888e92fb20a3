(** * Reading documents back: C72-C74
    Specifications: ReaderSpec ([pdf_pages], [pdf_text]: a PDF reader), ContentText ([means]),
    ReaderText ([legible], [shown_text]), ReaderDoc ([page_seen], [fine]), ReaderDraw
    ([drawing_text]). *)
From Coq Require Import String QArith Qcanon.
From Verif Require Import Base Gfmt GfmtProofs Atoms PdfSpec AtomsProofs FileProofs NameProofs FontSpec FontProofs ContentSpec ContentProofs ReaderSpec.
From Verif Require Import Num Fonts State Style TextSpec StateProofs Words WordsSpec Parse Render RenderSpec RenderProofs Firstfit KnuthPlass
  Optimum Common Show Draw DrawSpec TextBlock Layout LayoutSpec LayoutProofs LayoutPages ContentOps FontsUsed ReaderText ContentText Document DocumentSpec DocumentProofs
  ReaderDoc ReaderStd ReaderParas ReaderDraw ReaderFonts Properties_Fonts Properties_Words Properties_Text Properties_Layout Properties_Document.
Local Open Scope list_scope.
Open Scope nat_scope.

(** a document was written: [file] are its bytes, [pages] its pages *)
Definition written {NUM : Num} {ENV : Env NUM} compress fuel (ttf_of : font -> ttf) (items : list ditem) (sty : style)
           (file : bytes) (pages : list laid_page) : Prop :=
  exists fid parts, Forall is_byte fid /\ write_iter compress fuel ttf_of items sty fid = (parts, Finished)
  /\ file = concat parts /\ (N.of_nat (List.length file) < 10 ^ 10)%N /\ laid fuel (full_or full_default sty) items 0 pages.
Lemma written_finished {NUM : Num} {ENV : Env NUM} compress fuel ttf_of items sty file pages : written compress fuel ttf_of items sty file pages ->
  exists objs R cs strs fos fid parts, finished fuel ttf_of items (full_or full_default sty) objs pages R cs strs fos
  /\ Forall is_byte fid /\ write_file compress fid objs = Ok parts /\ file = concat parts /\ (N.of_nat (List.length (concat parts)) < 10 ^ 10)%N.
Proof.
  intros (fid & parts & FB & W & -> & SZ & L). unfold write_iter in W. destruct (doc_objects fuel ttf_of items _) as [objs e] eqn:D. cbn [fst snd] in W.
  apply write_gen_ok in W as (-> & W). destruct (doc_finished _ _ _ _ _ D) as (pages' & R & cs & strs & fos & H).
  rewrite <- (laid_unique _ _ _ _ _ L _ (fi_laid _ _ _ _ _ _ _ _ _ _ H)). exists objs, R, cs, strs, fos, fid, parts. auto.
Qed.

(** ** C72.  A PDF reader sees every page of every document written: the size and rotation
    it was given, and in its content stream the operators of the page, one by one: every
    number to six digits, every font by its name in the file, every character with its
    kerning, decodable by the current font. *)
Theorem C72_pages_as_read : forall (NUM : Num) (ENV : Env NUM) compress inflate fuel ttf_of items sty file pages,
  (forall b, inflate (compress b) = Some b) -> (forall f, embeddable (ttf_of f)) ->
  written compress fuel ttf_of items sty file pages -> Forall (fine (full_or full_default sty)) pages ->
  exists seen, pdf_pages inflate file = Some seen /\ Forall2 (page_seen ttf_of (full_or full_default sty)) pages seen.
Proof.
  intros NUM ENV compress inflate fuel ttf_of items sty file pages INV EM W FI.
  destruct (written_finished _ _ _ _ _ _ _ W) as (objs & R & cs & strs & fos & fid & parts & H & FB & WF & -> & SZ).
  eapply read_document; eassumption.
Qed.
Print Assumptions C72_pages_as_read.

(** ** C73.  The text of every page can be extracted from the file. *)
Theorem C73_text_extracted_partial : forall (NUM : Num) (ENV : Env NUM) compress inflate fuel ttf_of items sty file pages,
  (forall b, inflate (compress b) = Some b) -> (forall f, embeddable (ttf_of f)) ->
  written compress fuel ttf_of items sty file pages -> Forall (fine (full_or full_default sty)) pages ->
  exists texts, pdf_text inflate file = Some texts /\ Forall2 (page_says (full_or full_default sty)) pages texts.
Proof.
  intros NUM ENV compress inflate fuel ttf_of items sty file pages INV EM W FI.
  destruct (written_finished _ _ _ _ _ _ _ W) as (objs & R & cs & strs & fos & fid & parts & H & FB & WF & -> & SZ).
  eapply extract_document; eassumption.
Qed.
Print Assumptions C73_text_extracted_partial.
(** The numbers of a page can be printed (see C04), its text is in Unicode. *)
Definition printable_page {NUM : Num} {ENV : Env NUM} (base : full) (p : laid_page) : Prop :=
  plain (px (pg_size (fst p))) /\ plain (py (pg_size (fst p)))
  /\ forall ops, page_ops base p = Ok ops -> Forall op_plain ops /\ unicode (fst (view blank ops)).
(** Pages with drawings, in any fonts: every text whose strings begin with text (see C55)
    is extracted from its page, line after line; characters which are not in the character
    set of a standard font as "?". *)
Theorem C73_drawings_extracted : forall (NUM : Num) (ENV : Env NUM) compress inflate fuel ttf_of (ps : list (page drawing)) sty file pages,
  exact_eq NUM -> all_split -> (forall b, inflate (compress b) = Some b) -> (forall f, embeddable (ttf_of f)) ->
  let base := full_or full_default sty in
  written compress fuel ttf_of (map (@DPage NUM) ps) sty file pages ->
  Forall (fun p => Forall (good_drawing base) (pg_content p) /\ printable_page base (p, [])) ps ->
  pdf_text inflate file = Some (map (fun p => flat_map (drawing_text base) (pg_content p)) ps).
Proof.
  intros NUM ENV compress inflate fuel ttf_of ps sty file pages EE AS INV EM base W G.
  assert (P : pages = map (fun p => (p, [])) ps).
  { destruct W as (fid & parts & _ & _ & _ & _ & L). eapply laid_unique; [|exact L]. clear. generalize 0. induction ps as [|p ps IH]; intros n; cbn [map]; constructor. auto. }
  destruct (C73_text_extracted_partial NUM ENV compress inflate fuel ttf_of (map (@DPage NUM) ps) sty file pages INV EM W) as (texts & E & F).
  { rewrite P. apply Forall_map. eapply Forall_impl; [|exact G]. intros p (G1 & G2 & G3 & G4). split; [exact G2|]. split; [exact G3|].
    intros ops O. destruct (G4 ops O) as [A B]. split; [exact A|]. split; [exact B|]. apply (drawn_page _ _ _ EE AS G1 O). }
  rewrite E. f_equal. rewrite P in F. clear -F G EE AS. revert texts F. induction G as [|p ps (G1 & _) _ IH]; intros texts F; cbn [map] in F; inversion F as [|? t ? ts (ops & O & T) F']; subst; [reflexivity|].
  cbn [map]. f_equal; [|apply IH, F']. apply (drawn_page _ _ _ EE AS G1 O).
Qed.
Print Assumptions C73_drawings_extracted.

(** Documents in the standard fonts: the text of every page can always be extracted. *)
Theorem C73_standard_fonts : forall (NUM : Num) (ENV : Env NUM) compress inflate fuel ttf_of items sty file pages,
  (forall b, inflate (compress b) = Some b) -> (forall f, embeddable (ttf_of f)) ->
  let base := full_or full_default sty in
  written compress fuel ttf_of items sty file pages -> Forall (standard_item base) items -> Forall (printable_page base) pages ->
  exists texts, pdf_text inflate file = Some texts /\ Forall2 (page_says base) pages texts.
Proof.
  intros NUM ENV compress inflate fuel ttf_of items sty file pages INV EM base W ST P.
  eapply C73_text_extracted_partial; try eassumption. destruct W as (fid & parts & _ & _ & _ & _ & L).
  pose proof (laid_standard _ _ _ _ _ L ST) as S. clear -P S. induction P as [|p pages (P1 & P2 & P3) _ IH]; [constructor|].
  inversion S as [|? ? (S1 & S2 & S3) S4]; subst. constructor; [|apply IH, S4]. split; [exact P1|]. split; [exact P2|].
  intros ops O. destruct (P3 ops O) as [A B]. split; [exact A|]. split; [exact B|]. eapply standard_page; eassumption.
Qed.
Print Assumptions C73_standard_fonts.

(** Pages of blocks and drawings, each in one font (embedded or not) or in standard fonts
    ([coherent]), or (drawings) with strings that begin with text: the text of every page
    can always be extracted. *)
Theorem C73_one_font_partial : forall (NUM : Num) (ENV : Env NUM) compress inflate fuel ttf_of items sty file pages,
  (forall b, inflate (compress b) = Some b) -> (forall f, embeddable (ttf_of f)) ->
  let base := full_or full_default sty in
  written compress fuel ttf_of items sty file pages -> Forall (readable_item base) items -> Forall (printable_page base) pages ->
  exists texts, pdf_text inflate file = Some texts /\ Forall2 (page_says base) pages texts.
Proof.
  intros NUM ENV compress inflate fuel ttf_of items sty file pages INV EM base W ST P.
  eapply C73_text_extracted_partial; try eassumption. destruct W as (fid & parts & _ & _ & _ & _ & L).
  pose proof (laid_readable _ _ _ _ _ L ST) as S. clear -P S. induction P as [|p pages (P1 & P2 & P3) _ IH]; [constructor|].
  inversion S as [|? ? (S1 & S2) S3]; subst. constructor; [|apply IH, S3]. split; [exact P1|]. split; [exact P2|].
  intros ops O. destruct (P3 ops O) as [A B]. split; [exact A|]. split; [exact B|]. eapply readable_page; eassumption.
Qed.
Print Assumptions C73_one_font_partial.

(** ** C74.  From paragraphs to the text of the file: for automatic pages of paragraphs, each
    in one font, embedded or not, or in standard fonts, the texts of the pages are those of
    their drawings, followed by the lines of the paragraphs; over the pages, these show the
    lines of every paragraph, once and in order (see C53). *)
Fixpoint zip_app (a b : list str) : list str :=
  match a, b with x :: a, y :: b => (x ++ y) :: zip_app a b | _, _ => [] end.
Theorem C74_paragraphs_extracted_partial : forall (ENV : Env QcNum) compress inflate fuel ttf_of (ps : list (@para QcNum)) template sty file pages (h : Qc),
  all_split -> (forall b, inflate (compress b) = Some b) -> (forall f, embeddable (ttf_of f)) ->
  let base := full_or full_default sty in
  (0 <= h)%Qc -> room_for h template ->
  Forall (fun p => fits_lines h base p /\
    Forall (fun x => begins_text (fst x)) (span_strings base (ISpan (p_style p) (p_content p)))) ps ->
  readable_item base (DAuto (map (@BPara QcNum) ps) template) ->
  written compress fuel ttf_of [DAuto (map (@BPara QcNum) ps) template] sty file pages -> Forall (printable_page base) pages ->
  exists heads bodies rows, pdf_text inflate file = Some (zip_app heads bodies)
    /\ Forall2 (fun k head => exists l, mapM (fun d => draw_ops d base) (pg_content (template (Z.of_nat (k + 1)))) = Ok l
                              /\ head = shown_text (fst (view blank (concat l))))
               (seq 0 (List.length pages)) heads
    /\ List.length bodies = List.length pages
    /\ Forall2 (fun p prow => Forall2 shows_text prow (map (map fst) (para_lines base p))) ps rows
    /\ concat bodies = concat (map (fun pr => map (legible (para_font base (fst pr))) (concat (concat (snd pr)))) (combine ps rows)).
Proof.
  intros ENV compress inflate fuel ttf_of ps template sty file pages h AS INV EM base H RM FP ST W P.
  destruct (C73_one_font_partial _ ENV compress inflate fuel ttf_of _ sty file pages INV EM W ltac:(constructor; [exact ST|constructor]) P) as (texts & E & F).
  destruct W as (fid & parts & _ & _ & _ & _ & L). fold base in L, F.
  inversion L as [| |blocks template' items n ps' pages' A L' E1 E2 E3]; subst. inversion L'; subst. rewrite app_nil_r in *.
  destruct (auto_pages_bases _ _ _ _ _ _ A) as (_ & M).
  assert (X : exists heads, texts = zip_app heads (map (fun p => items_txt (items_of (flat_map cf_ops (snd p)))) ps')
     /\ Forall2 (fun (p : page drawing * list colfill) head => exists l, mapM (fun d => draw_ops d base) (pg_content (fst p)) = Ok l /\ head = shown_text (fst (view blank (concat l)))) ps' heads).
  { clear -F. revert texts F. induction ps' as [|p ps IH]; intros texts F; inversion F as [|? t ? ts (ops & O & T) F']; subst; [exists []; split; [reflexivity|constructor]|].
    destruct (IH ts F') as (heads & -> & HH). unfold page_ops in O. apply bind_ok in O as (l & O & OE). apply Ok_inj in OE. cbn [fst snd] in *.
    exists (shown_text (fst (view blank (concat l))) :: heads). split; [|constructor; [exists l; auto|exact HH]].
    cbn [map zip_app]. f_equal. rewrite !shown_items, !view_items, <- OE, items_of_app. unfold items_txt. apply flat_map_app. }
  destruct X as (heads & -> & HH).
  assert (Y : exists rows, Forall2 (fun p prow => Forall2 shows_text prow (map (map fst) (para_lines base p))) ps rows
    /\ concat (map (fun p => items_txt (items_of (flat_map cf_ops (snd p)))) ps')
       = concat (map (fun pr => map (legible (para_font base (fst pr))) (concat (concat (snd pr)))) (combine ps rows))).
  { destruct (pages_roomy _ _ _ _ _ _ _ h AS H RM FP A) as (_ & pieces & PF & PS).
    assert (Z : concat (map (fun p : page (@drawing QcNum) * list colfill => items_txt (items_of (flat_map cf_ops (snd p)))) ps')
       = concat (map (fun s => items_txt (flat_map wl_items (flat_map tl_words (flat_map shape_lines s)))) pieces)).
    { transitivity (items_txt (flat_map wl_items (flat_map tl_words (flat_map shape_lines (flat_map page_shapes ps'))))).
      - clear. induction ps' as [|p ps' IH]; [reflexivity|]. cbn [map concat flat_map]. rewrite IH, cols_items, !flat_map_app. unfold items_txt. rewrite flat_map_app. reflexivity.
      - rewrite PS. clear. induction pieces as [|s pieces IH]; [reflexivity|]. cbn [map concat flat_map]. rewrite <- IH, !flat_map_app. unfold items_txt. rewrite flat_map_app. reflexivity. }
    rewrite Z. destruct ST as [ST _]. clear -PF FP ST AS H. remember (map (@BPara QcNum) ps) as bs eqn:EB. revert ps EB FP.
    induction PF as [|b s bs pieces G PF IH]; intros [|p ps] EB FP; try discriminate; [exists []; split; [constructor|reflexivity]|].
    injection EB as -> ->. inversion FP as [|? ? ((L1 & L2) & BT) FP']; subst. inversion ST as [|? ? CO ST']; subst.
    destruct (IH ST' ps eq_refl FP') as (rows & R1 & R2). destruct G as (cs & added & out & J & PC & _ & AD & ->).
    destruct (LayoutRoom.para_any h fuel base p cs out AS BT L1 L2 J PC) as (added' & prow & _ & A' & C & R & _).
    pose proof (adds_unique _ _ _ _ AD A') as <-. exists (prow :: rows). split; [constructor; [exact C|exact R1]|].
    cbn [map concat combine fst snd]. f_equal; [|exact R2]. rewrite (para_txt fuel p base cs added out CO PC AD). f_equal.
    rewrite R. unfold para_shape_lines, shape_text. rewrite map_map. clear. generalize (concat added). intros l.
    induction l as [|x l IH]; [reflexivity|]. cbn [flat_map]. rewrite IH, map_app, concat_app. f_equal. apply flat_map_concat_map. }
  destruct Y as (rows & R1 & R2).
  exists heads, (map (fun p => items_txt (items_of (flat_map cf_ops (snd p)))) ps'), rows. split; [exact E|]. split.
  { rewrite map_length. clear -M HH. assert (HH' : Forall2 (fun q head => exists l, mapM (fun d => draw_ops d base) (pg_content q) = Ok l /\ head = shown_text (fst (view blank (concat l)))) (map fst ps') heads).
    { clear M. induction HH; cbn [map]; constructor; auto. }
    rewrite M in HH'. clear HH M. revert heads HH'. induction (seq 0 (List.length ps')) as [|k ks IH]; intros heads HH'; cbn [map] in *; inversion HH' as [|? ? ? ? Q1 Q2]; subst; constructor; [|apply IH, Q2].
    destruct Q1 as (l & Q & ->). exists l. split; [|reflexivity]. rewrite <- Q. do 3 f_equal. lia. }
  split; [rewrite !map_length; reflexivity|]. split; [exact R1|exact R2].
Qed.
Print Assumptions C74_paragraphs_extracted_partial.

(** ** Examples *)
Section Decide.
Context {NUM : Num} {ENV : Env NUM}.
Definition plainb (x : num) : bool := match nto_Q x with Some q => g_plain q | None => false end.
Lemma plainb_ok x : plainb x = true -> plain x.
Proof. unfold plainb, plain. destruct (nto_Q x) as [q|]; [|discriminate]. eauto. Qed.
Definition op_plainb (o : op) : bool :=
  forallb plainb (op_nums o) && match o with OTJ l => forallb plainb (flat_map item_nums l) | _ => true end.
Lemma forallb_ok {A} (f : A -> bool) (P : A -> Prop) l : (forall x, f x = true -> P x) -> forallb f l = true -> Forall P l.
Proof. intros H. induction l as [|x l IH]; cbn; constructor; apply andb_true_iff in H0 as [A1 A2]; auto. Qed.
Lemma op_plainb_ok o : op_plainb o = true -> op_plain o.
Proof.
  unfold op_plainb, op_plain. intros H. apply andb_true_iff in H as [A B]. split; [eapply forallb_ok; [apply plainb_ok|exact A]|].
  destruct o; try exact I. eapply forallb_ok; [apply plainb_ok|exact B].
Qed.
Definition printableb (base : full) (p : laid_page) : bool :=
  plainb (px (pg_size (fst p))) && plainb (py (pg_size (fst p))) &&
  match page_ops base p with
  | Ok ops => forallb op_plainb ops
      && forallb (fun s => forallb (fun i => forallb (fun c => c <? 1114112)%N (item_text i)) (sh_items s)) (fst (view blank ops))
  | Err _ => true
  end.
Lemma printableb_ok base p : printableb base p = true -> printable_page base p.
Proof.
  unfold printableb, printable_page. intros H. apply andb_true_iff in H as [H C]. apply andb_true_iff in H as [A B].
  split; [apply plainb_ok, A|]. split; [apply plainb_ok, B|]. intros ops O. rewrite O in C. apply andb_true_iff in C as [C D].
  split; [eapply forallb_ok; [apply op_plainb_ok|exact C]|]. unfold unicode. eapply forallb_ok; [|exact D]. intros s S'.
  eapply forallb_ok; [|exact S']. intros i S2. eapply forallb_ok; [|exact S2]. intros c. apply N.ltb_lt.
Qed.
End Decide.
Definition same (b : bytes) : bytes := b.
Definition show_str (t : str) : string := string_of_list_ascii (map Ascii.ascii_of_N t).
#[local] Existing Instance ex_words.
(** two pages, with text in a standard and an embedded font *)
Definition ex_draw : list (@ditem QcNum) := map (@DPage QcNum) [ex_page; ex_page].
Definition ex_draw_file : bytes := concat (fst (write_iter same 100 ex_ttfs ex_draw style_empty (bs "id"))).
Lemma ex_written items pages : (is_finished (snd (write_iter same 100 ex_ttfs items style_empty (bs "id")))
    && (N.of_nat (List.length (concat (fst (write_iter same 100 ex_ttfs items style_empty (bs "id"))))) <? 10 ^ 10)%N)%bool = true ->
  laid 100 full_default items 0 pages ->
  written same 100 ex_ttfs items style_empty (concat (fst (write_iter same 100 ex_ttfs items style_empty (bs "id")))) pages.
Proof.
  intros H L. apply andb_true_iff in H as [A B]. apply N.ltb_lt in B. exists (bs "id"), (fst (write_iter same 100 ex_ttfs items style_empty (bs "id"))).
  split; [repeat constructor|]. split; [|auto]. destruct (write_iter same 100 ex_ttfs items style_empty (bs "id")) as [x []]; try discriminate A. reflexivity.
Qed.
Lemma ex_embeddable f : embeddable (ex_ttfs f).
Proof. split; [reflexivity|]. exists 500%Q. split; reflexivity. Qed.
Example C73_example :
  exact_eq QcNum /\ all_split /\ (forall b, Some (same b) = Some b) /\ (forall f, embeddable (ex_ttfs f))
  /\ written same 100 ex_ttfs ex_draw style_empty ex_draw_file [(ex_page, []); (ex_page, [])]
  /\ Forall (fun p => Forall (good_drawing full_default) (pg_content p) /\ printable_page full_default (p, [])) [ex_page; ex_page]
  /\ option_map (map show_str) (pdf_text Some ex_draw_file) = Some ["Hiyou"; "Hiyou"]%string.
Proof.
  split; [exact QcNum_exact|]. split; [exact ex_splits|]. split; [reflexivity|]. split; [exact ex_embeddable|]. split; [|split].
  - apply ex_written; [vm_compute; reflexivity|]. repeat constructor.
  - assert (X : Forall (good_drawing full_default) (pg_content ex_page) /\ printable_page full_default (ex_page, [])).
    { split; [|apply printableb_ok; vm_compute; reflexivity]. constructor; [|repeat constructor]. split; [vm_compute; discriminate|].
      repeat constructor; vm_compute; congruence. }
    auto.
  - vm_compute. reflexivity.
Qed.
Definition vnames (vp : vpage) : list string := map (fun i => show_str (fst i)) (vp_instrs vp).
Example C72_example :
  written same 100 ex_ttfs ex_draw style_empty ex_draw_file [(ex_page, []); (ex_page, [])]
  /\ Forall (fine full_default) [(ex_page, []); (ex_page, [])]
  /\ option_map (map (fun vp => (vp_rotate vp, vnames vp))) (pdf_pages Some ex_draw_file)
     = Some (repeat (Some (PInt 90), ["BT"; "Td"; "Tf"; "rg"; "TL"; "T*"; "TJ"; "Tf"; "TJ"; "TJ"; "ET"; "re"; "RG"; "S"]%string) 2).
Proof.
  destruct C73_example as (EE & AS & _ & _ & W & G & _).
  split; [exact W|]. split; [|vm_compute; reflexivity].
  apply (Forall_map (fun p => (p, [])) _ [ex_page; ex_page]). eapply Forall_impl; [|exact G]. intros p (G1 & G2 & G3 & G4). split; [exact G2|]. split; [exact G3|].
  intros ops O. destruct (G4 ops O) as [A B]. split; [exact A|]. split; [exact B|]. apply (drawn_page _ _ _ EE AS G1 O).
Qed.

(** Not without [good_drawing]: a text that begins with a line break and is in an embedded
    font is written, but cannot be read: its first word is encoded for the embedded
    font (glyph numbers) and shown in the standard font (see C55), where these bytes have
    no meaning. *)
Definition bad_embedded : @page QcNum (@drawing QcNum) :=
  mkPage [DText ex_loc [ISpan (@mkStyle QcNum (Some ex_embedded) None None None None None None) [IStr (nl ++ str_of "food")]] style_empty ALeft]
         (@A4 QcNum) 0 (pg_columns (@default_page QcNum)).
Definition bad_file : bytes := concat (fst (write_iter same 100 ex_ttfs [DPage bad_embedded] style_empty (bs "id"))).
Theorem C73_refuted :
  written same 100 ex_ttfs [DPage bad_embedded] style_empty bad_file [(bad_embedded, [])]
  /\ printable_page full_default (bad_embedded, [])
  /\ map show_str (map (drawing_text full_default) (pg_content bad_embedded)) = ["food"]%string
  /\ pdf_text Some bad_file = None.
Proof.
  split; [|split; [apply printableb_ok; vm_compute; reflexivity|split; vm_compute; reflexivity]].
  apply ex_written; [vm_compute; reflexivity|]. repeat constructor.
Qed.
Print Assumptions C73_refuted.

(** two paragraphs (one with each line breaking algorithm), the first in an embedded font,
    the other in the standard font *)
Definition embed_style : @style QcNum := mkStyle (Some ex_embedded) None None None None None None.
Definition ex_mixed : list (@para QcNum) :=
  [mkPara long_text embed_style ALeft n0 true None; par long_text true].
Definition ex_auto : list (@ditem QcNum) := [DAuto (map (@BPara QcNum) ex_mixed) ex_template].
Definition ex_auto_file : bytes := concat (fst (write_iter same 100 ex_ttfs ex_auto style_empty (bs "id"))).
Definition ex_auto_pages : list (@laid_page QcNum) :=
  match auto_pages 100 (map (@BPara QcNum) ex_mixed) ex_template full_default 1 with
  | Ok ps => map (fun p => (fst p, flat_map cf_ops (snd p))) ps | Err _ => [] end.
Example C74_example :
  written same 100 ex_ttfs ex_auto style_empty ex_auto_file ex_auto_pages
  /\ Forall (readable_item full_default) ex_auto /\ Forall (printable_page full_default) ex_auto_pages
  /\ (exists p, In p ex_mixed /\ is_builtin (para_font full_default p) = false) /\ (exists p, In p ex_mixed /\ is_builtin (para_font full_default p) = true)
  /\ (0 <= Q2Qc 32)%Qc /\ room_for (Q2Qc 32) ex_template
  /\ Forall (fun p => fits_lines (Q2Qc 32) full_default p /\ para_begins full_default p) ex_mixed
  /\ option_map (map show_str) (pdf_text Some ex_auto_file)
     = Some ["one twothree four"; "five sixseveneight nine"; "ten eleventwelve"; "thirteenfourteenone twothree four";
             "five six"; "seveneight nineten eleventwelve"; "thirteenfourteen"]%string.
Proof.
  split; [|split; [|split]].
  - apply ex_written; [vm_compute; reflexivity|]. replace ex_auto_pages with (ex_auto_pages ++ []) by apply app_nil_r.
    assert (K : is_ok (auto_pages 100 (map (@BPara QcNum) ex_mixed) ex_template full_default 1) = true) by (vm_compute; reflexivity).
    revert K. unfold ex_auto_pages, ex_auto.
    destruct (auto_pages _ _ _ _ _) as [ps|] eqn:E; intros K; [apply laid_auto_item; [exact E|constructor]|discriminate K].
  - constructor; [|constructor]. split; [|intros n; constructor].
    assert (X : forall l : list font, (forallb (fun f => forallb (fun g => font_eqb f g || is_builtin f && is_builtin g)%bool l) l) = true -> coherent l).
    { intros l H f g A B. rewrite forallb_forall in H. specialize (H f A). rewrite forallb_forall in H. specialize (H g B).
      apply orb_true_iff in H as [H|H]; [left; apply font_eqb_eq, H|right; apply andb_true_iff in H; exact H]. }
    constructor; [apply X; vm_compute; reflexivity|]. constructor; [apply X; vm_compute; reflexivity|constructor].
  - apply (forallb_ok (printableb full_default)); [apply printableb_ok|vm_compute; reflexivity].
  - split; [eexists; split; [left; reflexivity|vm_compute; reflexivity]|].
    split; [eexists; split; [right; left; reflexivity|vm_compute; reflexivity]|].
    destruct C53_example as (_ & _ & A & B & _). split; [exact A|]. split; [exact B|].
    split; [repeat constructor; vm_compute; congruence|]. vm_compute. reflexivity.
Qed.

(** Not with several fonts: a paragraph whose first word changes from the standard to an
    embedded font begins with the embedded font (see C54): the file is written, but what
    is extracted is not the text. *)
Definition bad_para : list (@ditem QcNum) :=
  [DAuto (map (@BPara QcNum) [par [IStr (str_of "Hell"); ISpan embed_style [IStr (str_of "o")]] false]) ex_template].
Definition bad_para_file : bytes := concat (fst (write_iter same 100 ex_ttfs bad_para style_empty (bs "id"))).
Definition bad_para_pages : list (@laid_page QcNum) :=
  match bad_para with
  | [DAuto blocks template] => match auto_pages 100 blocks template full_default 1 with
      | Ok ps => map (fun p => (fst p, flat_map cf_ops (snd p))) ps | Err _ => [] end
  | _ => []
  end.
Theorem C74_refuted :
  written same 100 ex_ttfs bad_para style_empty bad_para_file bad_para_pages /\ Forall (printable_page full_default) bad_para_pages
  /\ pdf_text Some bad_para_file = None.
Proof.
  split; [|split].
  - apply ex_written; [vm_compute; reflexivity|]. replace bad_para_pages with (bad_para_pages ++ []) by apply app_nil_r.
    assert (K : match bad_para with [DAuto blocks template] => is_ok (auto_pages 100 blocks template full_default 1) | _ => false end = true) by (vm_compute; reflexivity).
    revert K. unfold bad_para_pages, bad_para.
    destruct (auto_pages _ _ _ _ _) as [ps|] eqn:E; intros K; [apply laid_auto_item; [exact E|constructor]|discriminate K].
  - apply (forallb_ok (printableb full_default)); [apply printableb_ok|vm_compute; reflexivity].
  - vm_compute. reflexivity.
Qed.
Print Assumptions C74_refuted.
