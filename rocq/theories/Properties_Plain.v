(** * C89: a document made from a string can be written, opened and read back.
    Specifications: ReaderSpec ([pdf_pages], [pdf_text]: a PDF reader), LayoutSpec
    ([shows_text]), ShortWords ([short_words]), PlainDoc ([modest]), Printable ([ordinary]). *)
From Coq Require Import String QArith Qcanon Lqa.
From Verif Require Import Base Gfmt GfmtProofs Atoms PdfSpec AtomsProofs FileProofs NameProofs FontSpec FontProofs ContentSpec ContentProofs ReaderSpec.
From Verif Require Import Num Fonts State Style TextSpec StateProofs Words WordsSpec Parse Render RenderSpec RenderProofs Firstfit KnuthPlass
  Optimum Common Show Draw DrawSpec TextBlock Layout LayoutSpec LayoutProofs LayoutPages LayoutText ContentOps FontsUsed ReaderText ContentText Document DocumentSpec DocumentProofs
  ReaderDoc ReaderStd ReaderParas ReaderDraw ReaderFonts Properties_Fonts Properties_Words Properties_Text Properties_Layout Properties_Document
  BuiltinTables Builtins Properties_Builtins Properties_KnuthPlass Properties_Reader LayoutTotal SuccessProofs SuccessDoc Properties_Success NumbersUsed Printable ShortWords PlainDoc ContentOps.
Local Open Scope list_scope.
Open Scope nat_scope.

(** ** The lines of a text: it is cut at every LF; a CR before it goes with it *)
Inductive cut_into_lines : str -> list str -> Prop :=
| last_line l : ~ In 10%N l -> cut_into_lines l [l]
| line_lf l rest ls : ~ In 10%N l -> (forall l', l <> l' ++ [13%N]) -> cut_into_lines rest ls -> cut_into_lines (l ++ [10%N] ++ rest) (l :: ls)
| line_crlf l rest ls : ~ In 10%N l -> cut_into_lines rest ls -> cut_into_lines (l ++ [13; 10]%N ++ rest) (l :: ls).
Lemma cut_cons c r ls l : (c <> 10)%N -> (c = 13 -> hd 0 r <> 10)%N -> cut_into_lines r (l :: ls) -> cut_into_lines (c :: r) ((c :: l) :: ls).
Proof.
  intros N1 N2 H. inversion H as [l0 NL|l0 rest ls0 NL NC H'|l0 rest ls0 NL H']; subst.
  - constructor. intros [E|E]; [congruence|auto].
  - apply (line_lf (c :: l)); [intros [E|E]; [congruence|auto]| |exact H'].
    intros [|d l'] E; injection E as -> E2; [|eapply NC; exact E2]. subst l. apply N2; reflexivity.
  - apply (line_crlf (c :: l)); [intros [E|E]; [congruence|auto]|exact H'].
Qed.
Lemma cut_nonempty {NUM : Num} t (st : state) : cut t st <> [].
Proof.
  induction t as [|c r IH]; [discriminate|]. cbn [cut]. destruct (_ =? 10)%N; [discriminate|]. destruct (_ && _)%bool; [exact IH|]. destruct (cut r st); discriminate.
Qed.
Lemma cut_lines {NUM : Num} t (st : state) : cut_into_lines t (map (map fst) (cut t st)).
Proof.
  induction t as [|c r IH]; [constructor; intros []|]. cbn [cut]. destruct (N.eqb_spec c 10) as [->|N1].
  - apply (line_lf []); [intros []|intros [|? ?]; discriminate|exact IH].
  - destruct ((c =? 13) && _)%N eqn:E.
    + apply andb_true_iff in E as [E1 E2]. apply N.eqb_eq in E1. subst c. destruct r as [|d r]; [discriminate|]. apply N.eqb_eq in E2. subst d.
      cbn [cut] in *. change ((10 =? 10)%N) with true in *. cbn iota in *.
      assert (X : cut_into_lines r (map (map fst) (cut r st))).
      { inversion IH as [l0 NL|l0 rest ls0 NL NC H'|l0 rest ls0 NL H']; subst.
        - match goal with E : [] ++ _ = _ |- _ => injection E as -> end. exact H'.
        - discriminate. }
      apply (line_crlf []); [intros []|exact X].
    + destruct (cut r st) as [|l ls] eqn:C; [exfalso; apply (cut_nonempty r st C)|]. apply cut_cons; [exact N1| |exact IH].
      cbn [fst]. intros ->. destruct r as [|d r]; cbn [hd]; [discriminate|]. cbn in E. apply N.eqb_neq, E.
Qed.

(** ** The pages of paragraphs can be printed.
    Numbers which are 0 or between 0.0001 and a million in size ([ordinary]) are printed
    without an exponent (see C04).  If the sizes, colours and line heights of left-aligned
    paragraphs are such numbers, and the places of the columns, all numbers on the pages are. *)
Theorem C89_pages_printable : forall (ENV : Env QcNum) fuel (ps : list (@para QcNum)) template base pages (h : Qc),
  all_split -> (forall f a b, ordinary (charkern f a b)) -> (0 <= h)%Qc -> room_for h template -> ordinary_columns template ->
  (forall n, pg_content (template n) = [] /\ ordinary (px (pg_size (template n))) /\ ordinary (py (pg_size (template n)))) ->
  good_full ordinary base -> Forall (fun p => fits_lines h base p /\ ordinary_para base p) ps ->
  laid fuel base [DAuto (map (@BPara QcNum) ps) template] 0 pages ->
  Forall (printable_page base) pages.
Proof.
  intros ENV fuel ps template base pages h AS KO H0 RM OC TP GB FP L.
  inversion L as [| |blocks template' items n ps' pages' A L' E1 E2 E3]; subst. inversion L'; subst. rewrite app_nil_r in *.
  pose proof (pages_ordinary ENV fuel ps template base _ ps' h AS KO H0 RM OC GB FP A) as O.
  destruct (auto_pages_bases _ _ _ _ _ _ A) as (_ & M). apply Forall_map.
  assert (X : Forall (fun p : page drawing * list colfill => exists n, fst p = template n) ps').
  { clear -M. apply Forall_forall. intros p I. apply (in_map fst) in I. rewrite M in I. apply in_map_iff in I as (k & E & _). eauto. }
  clear -O X TP. induction O as [|p l O _ IH]; [constructor|]. inversion X as [|? ? (n & E) X']; subst. constructor; [|apply IH, X'].
  destruct (TP n) as (C & P1 & P2). unfold printable_page. cbn [fst snd]. rewrite E. split; [apply ordinary_plain, P1|]. split; [apply ordinary_plain, P2|].
  intros ops PO. unfold page_ops in PO. cbn [fst snd] in PO. rewrite C in PO. cbn [mapM bind] in PO. apply Ok_inj in PO. cbn [concat app] in PO. subst ops.
  split; [|apply ops_in_unicode, O]. eapply Forall_impl; [|exact O]. apply op_in_plain.
Qed.
Print Assumptions C89_pages_printable.

(** ** [Document(s).write()], then reading the file.
    [sound_font]: the glyphs of a font do not go backwards, and its kerns are ordinary
    numbers; the standard fonts are. *)
Definition sound_font {ENV : Env QcNum} (f : font) : Prop :=
  forall c, (0 <= charwidth f c)%Qc /\ forall a, (0 <= charwidth f c + charkern f a c)%Qc /\ ordinary (charkern f a c).
Lemma QZ_ordinary k : (-300 <= k <= 100)%Z -> ordinary (QZ k).
Proof.
  intros [A B]. unfold ordinary, QZ. destruct (Z_lt_le_dec 0 k); [right; left|destruct (Z.eq_dec k 0) as [->|]; [left; reflexivity|right; right]];
    unfold Qcle, Qclt; rewrite ?this_opp, !this_Q2Qc; unfold Qle, Qlt; cbn; lia.
Qed.
Lemma fonts_sound (ENV : Env QcNum) : standard_metrics ENV -> (forall f, is_builtin f = false -> sound_font f) ->
  glyphs_nonneg /\ forall f a b, ordinary (charkern f a b).
Proof.
  intros SM EMB. split.
  - apply (C80_standard_fonts ENV SM). intros f B c. destruct (EMB f B c) as (P & R). split; [exact P|]. intros a. apply R.
  - intros f a b. destruct (is_builtin f) eqn:B; [|apply (EMB f B b)]. destruct (standard_bounds ENV SM f B) as (_ & K).
    destruct (K a b) as (k & -> & R). apply QZ_ordinary, R.
Qed.
Lemma standard_fine {NUM : Num} {ENV : Env NUM} fuel base items pages : laid fuel base items 0 pages -> Forall (standard_item base) items ->
  Forall (printable_page base) pages -> Forall (fine base) pages.
Proof.
  intros L ST P. pose proof (laid_standard _ _ _ _ _ L ST) as S. clear -P S. induction P as [|p pages (P1 & P2 & P3) _ IH]; [constructor|].
  inversion S as [|? ? (S1 & S2 & S3) S4]; subst. constructor; [|apply IH, S4]. split; [exact P1|]. split; [exact P2|].
  intros ops O. destruct (P3 ops O) as [A B]. split; [exact A|]. split; [exact B|]. eapply standard_page; eassumption.
Qed.
Lemma glue_end {A} (l : list (list A)) : l <> [] -> glue l [[]] = l.
Proof. induction l as [|x [|y l] IH]; intros N; [congruence| |]; cbn [glue]; [rewrite app_nil_r; reflexivity|]. f_equal. apply IH. discriminate. Qed.
(** a page of the file has the size and rotation given (numbers in a file have six digits) *)
Definition page_like (p : page (@drawing QcNum)) (vp : vpage) : Prop :=
  vp_rotate vp = Some (PInt (pg_rotate p))
  /\ exists x0 y0 x1 y1, vp_box vp = Some (PArr [x0; y0; x1; y1]) /\ zero x0 /\ zero y0
       /\ num_says (px (pg_size p)) x1 /\ num_says (py (pg_size p)) y1.
Lemma F2_nth {A B} (R : A -> B -> Prop) l m : Forall2 R l m -> forall k b, nth_error m k = Some b -> exists a, nth_error l k = Some a /\ R a b.
Proof. induction 1 as [|a b l m H _ IH]; intros [|k] x N; try discriminate; cbn in *; [injection N as <-; eauto|apply IH, N]. Qed.
(** a page of the file is an A4 page, not rotated (numbers in a file have six digits) *)
Definition is_A4 (vp : vpage) : Prop :=
  vp_rotate vp = Some (PInt 0)
  /\ exists x0 y0 x1 y1, vp_box vp = Some (PArr [x0; y0; x1; y1]) /\ zero x0 /\ zero y0
       /\ (exists v, obj_num x1 = Some v /\ ContentSpec.near v 595) /\ (exists v, obj_num y1 = Some v /\ ContentSpec.near v 842).
(** Paragraphs on automatic pages: left-aligned, not indented, in standard fonts and ordinary
    numbers, which can be laid out (C80).  The text of the file is that of the paragraphs. *)
Theorem C89_paragraphs_read_back : forall (ENV : Env QcNum) compress inflate ttf_of (ps : list (@para QcNum)) template sty fid (h width : Qc),
  all_split -> standard_metrics ENV -> (forall f, is_builtin f = false -> sound_font f) ->
  (forall b, inflate (compress b) = Some b) -> (forall f, ReaderDoc.embeddable (ttf_of f)) -> Forall is_byte fid ->
  let base := full_or full_default sty in
  (0 <= h)%Qc -> (0 < width)%Qc -> room_for h template -> wide width template -> ordinary_columns template ->
  (forall n, pg_content (template n) = [] /\ ordinary (px (pg_size (template n))) /\ ordinary (py (pg_size (template n)))) ->
  good_full ordinary base ->
  Forall (fun p => layable h width base p /\ ordinary_para base p /\ standard_fonts (para_fonts p base)
                   /\ Forall (fun x => begins_text (fst x)) (span_strings base (ISpan (p_style p) (p_content p)))) ps ->
  exists long file_parts,
    (forall fuel, long <= fuel -> write_iter compress fuel ttf_of [DAuto (map (@BPara QcNum) ps) template] sty fid = (file_parts, Finished))
    /\ let file := concat file_parts in
       ((N.of_nat (List.length file) < 10 ^ 10)%N ->
        exists seen texts rows,
          pdf_pages inflate file = Some seen /\ seen <> []
          /\ (forall k vp, nth_error seen k = Some vp -> page_like (template (Z.of_nat k + 1)%Z) vp)
          /\ pdf_text inflate file = Some texts /\ List.length texts = List.length seen
          /\ Forall2 (fun p shown => Forall2 shows_text shown (map (map fst) (para_lines base p))) ps rows
          /\ concat texts = concat (map (fun pr => map (legible (para_font base (fst pr))) (concat (concat (snd pr)))) (combine ps rows))).
Proof.
  intros ENV compress inflate ttf_of ps template sty fid h width AS SM EMB INV EM FB base H0 W0 RM WD OC TC GB FP.
  destruct (fonts_sound ENV SM EMB) as (GN & KO). set (items := [DAuto (map (@BPara QcNum) ps) template]).
  assert (CL : Forall (can_lay base) items).
  { constructor; [|constructor]. exists ps, [], h, width. split; [rewrite app_nil_r; reflexivity|]. split; [exact H0|]. split; [exact W0|]. split; [exact RM|]. split; [exact WD|].
    split; [eapply Forall_impl; [|exact FP]; intros p P; apply P|]. split; [constructor|]. intros n. destruct (TC n) as (-> & _). constructor. }
  assert (SI : Forall (standard_item base) items).
  { constructor; [|constructor]. split; [|intros n; destruct (TC n) as (-> & _); constructor]. apply Forall_map. eapply Forall_impl; [|exact FP]. intros p P. apply P. }
  destruct (C80_writing_finishes_partial ENV compress ttf_of items sty fid AS GN ltac:(discriminate) CL SI) as (long & parts & W).
  exists long, parts. split; [exact W|]. intros file SZ.
  assert (WR : exists pages, written compress long ttf_of items sty file pages).
  { specialize (W long (le_n _)). pose proof W as W1. unfold write_iter in W. destruct (doc_objects long ttf_of _ _) as [objs e] eqn:D. cbn [fst snd] in W.
    apply write_gen_ok in W as (-> & W). destruct (doc_finished _ _ _ _ _ D) as (pages & R & cs & strs & fos & H).
    exists pages, fid, parts. split; [exact FB|]. split; [exact W1|]. split; [reflexivity|]. split; [exact SZ|]. apply (fi_laid _ _ _ _ _ _ _ _ _ _ H). }
  destruct WR as (pages & WR).
  assert (L : laid long base items 0 pages) by (destruct WR as (? & ? & _ & _ & _ & _ & L); exact L).
  assert (PR : Forall (printable_page base) pages).
  { eapply (C89_pages_printable ENV long ps template base pages h AS KO); try assumption. eapply Forall_impl; [|exact FP]. intros p ((_ & P & _) & Q' & _). auto. }
  pose proof (standard_fine _ _ _ _ L SI PR) as FI.
  destruct (C72_pages_as_read _ ENV compress inflate long ttf_of _ sty file pages INV EM WR FI) as (seen & PS & F2).
  destruct (C74_paragraphs_extracted_partial ENV compress inflate long ttf_of ps template sty file pages h AS INV EM H0 RM)
    as (heads & bodies & rows & PT & HH & LB & RW & CB); [| |exact WR|exact PR|].
  { eapply Forall_impl; [|exact FP]. intros p ((_ & P & _) & _ & _ & Q'). auto. }
  { pose proof (Forall_inv SI) as (S1 & _). split; [|intros n; destruct (TC n) as (-> & _); constructor].
    eapply Forall_impl; [|exact S1]. intros b SB f g If Ig. right. unfold standard_fonts in SB. rewrite Forall_forall in SB. auto. }
  assert (TX : zip_app heads bodies = bodies).
  { clear -HH LB TC. rewrite <- (seq_length (List.length pages) 0) in LB. revert bodies LB.
    induction HH as [|k head ks heads (l & E & ->) _ IH]; intros [|b bodies] LB; cbn in LB; try discriminate; [reflexivity|].
    cbn [zip_app]. f_equal; [|apply IH; lia]. destruct (TC (Z.of_nat (k + 1))) as (C & _). rewrite C in E. cbn in E. apply Ok_inj in E. subst l. reflexivity. }
  rewrite TX in PT. exists seen, bodies, rows.
  assert (LN : List.length pages = List.length seen) by (clear -F2; induction F2; cbn; congruence).
  inversion L as [| |blocks template' items' k ps' pages' A L' E1 E2 E3]; subst. inversion L'; subst. rewrite app_nil_r in *.
  apply auto_pages_bases in A as (NE & M).
  split; [exact PS|]. split.
  { intros ->. destruct ps'; [congruence|discriminate]. }
  split.
  { clear -F2 M. intros k vp N. set (pg := fun p : page drawing * list colfill => (fst p, flat_map cf_ops (snd p))) in *.
    destruct (F2_nth _ _ _ F2 k vp N) as (p & Np & (B & R & _)). rewrite nth_error_map in Np. destruct (nth_error ps' k) as [p'|] eqn:N'; [|discriminate]. injection Np as <-.
    assert (E : fst p' = template (Z.of_nat k + 1)%Z).
    { pose proof (map_nth_error fst _ _ N') as X. rewrite M in X. rewrite nth_error_map in X. assert (LK : k < List.length ps') by (apply nth_error_Some; congruence).
      destruct (nth_error (seq 0 (List.length ps')) k) as [j|] eqn:J; [|discriminate]. apply nth_error_nth with (d := 0) in J. rewrite seq_nth in J by exact LK. subst j.
      cbn in X. injection X as <-. f_equal. lia. }
    cbn [fst pg] in B, R. rewrite E in B, R. split; [exact R|exact B]. }
  split; [exact PT|]. split; [congruence|]. split; [exact RW|exact CB].
Qed.
Print Assumptions C89_paragraphs_read_back.
(** A string. *)
Theorem C89_string_read_back : forall (ENV : Env QcNum) compress inflate ttf_of (default : @num QcNum * @params QcNum) sty n s fid,
  all_split -> standard_metrics ENV -> (forall f, is_builtin f = false -> sound_font f) -> (0 < fst default)%Qc ->
  (forall b, inflate (compress b) = Some b) -> (forall f, ReaderDoc.embeddable (ttf_of f)) -> Forall is_byte fid ->
  let base := full_or full_default sty in
  modest n base -> begins_text s -> Forall unichar s -> short_words n s ->
  exists long file_parts,
    (forall fuel, long <= fuel -> write_iter compress fuel ttf_of (doc_items default (CStr s)) sty fid = (file_parts, Finished))
    /\ let file := concat file_parts in
       ((N.of_nat (List.length file) < 10 ^ 10)%N ->
        exists seen texts lines shown,
          pdf_pages inflate file = Some seen /\ seen <> [] /\ Forall is_A4 seen
          /\ pdf_text inflate file = Some texts /\ List.length texts = List.length seen
          /\ cut_into_lines s lines /\ Forall2 shows_text shown lines
          /\ concat texts = map (legible (st_font (as_state base))) (concat (concat shown))).
Proof.
  intros ENV compress inflate ttf_of default sty n s fid AS SM EMB TP INV EM FB base MO BT UN SW.
  pose proof (string_layable n default base s AS SM TP MO SW) as LA. pose proof MO as (M1 & M2 & M3 & M4 & M5 & M6 & M7 & M8).
  destruct (C89_paragraphs_read_back ENV compress inflate ttf_of [plain_para default s] (fun _ => default_page) sty fid (Q2Qc 698) (Q2Qc 451)) as (long & parts & W & X); try assumption.
  - discriminate.
  - reflexivity.
  - intros k; split; [discriminate|constructor; [vm_compute; discriminate|constructor]].
  - intros k; constructor; [vm_compute; discriminate|constructor].
  - intros k. constructor; [|constructor]. split; [right; left; split; vm_compute; [discriminate|reflexivity]|]. split; vm_compute; [discriminate|reflexivity].
  - intros k. split; [reflexivity|]. split; right; left; split; vm_compute; first [discriminate|reflexivity].
  - split; assumption.
  - constructor; [|constructor]. split; [exact LA|]. split; [|split].
    + split; [reflexivity|]. split; [reflexivity|]. split; [fold base; rewrite (lead_plain default base s M5); exact M6|].
      apply good_span. split; [split; discriminate|]. constructor; [exact UN|constructor].
    + unfold para_fonts. cbn [p_style p_content plain_para]. fold base. rewrite or_empty. constructor; [exact M1|].
      replace (flatten_fonts base style_empty [IStr s]) with (@nil font) by (destruct base; reflexivity). constructor.
    + cbn [span_strings flat_map p_style p_content plain_para app]. constructor; [exact BT|constructor].
  - exists long, parts. split; [exact W|]. intros file SZ. destruct (X SZ) as (seen & texts & rows & PS & NE & PL & PT & LN & RW & CB).
    inversion RW as [|? row ? rows' R1 R2]; subst. inversion R2; subst.
    exists seen, texts, (map (map fst) (para_lines base (plain_para default s))), row. split; [exact PS|]. split; [exact NE|]. split.
    { apply Forall_forall. intros vp Iv. apply In_nth_error in Iv as (k & N). destruct (PL k vp N) as (R & B). split; [exact R|].
      destruct B as (x0 & y0 & x1 & y1 & E & Z0 & Z1 & (q & v & Q1 & V1 & N1) & (q' & v' & Q2 & V2 & N2)).
      exists x0, y0, x1, y1. split; [exact E|]. split; [exact Z0|]. split; [exact Z1|]. split; [exists v|exists v']; (split; [assumption|]).
      - cbn in Q1. injection Q1 as <-. exact N1.
      - cbn in Q2. injection Q2 as <-. exact N2. }
    split; [exact PT|]. split; [exact LN|]. split.
    { unfold para_lines. cbn [span_strings flat_map p_style p_content plain_para app lines_of]. rewrite or_empty, glue_end by apply cut_nonempty. apply cut_lines. }
    split; [exact R1|]. rewrite CB. cbn [combine map concat fst snd]. rewrite app_nil_r. unfold para_font. cbn [p_style plain_para]. fold base. rewrite or_empty. reflexivity.
Qed.
Print Assumptions C89_string_read_back.

(** The default style (Helvetica of 12 points, lines 15 points apart) takes words of up to
    30 characters; *)
Corollary C89_default_style : forall (ENV : Env QcNum) compress inflate ttf_of (default : @num QcNum * @params QcNum) s fid,
  all_split -> standard_metrics ENV -> (forall f, is_builtin f = false -> sound_font f) -> (0 < fst default)%Qc ->
  (forall b, inflate (compress b) = Some b) -> (forall f, ReaderDoc.embeddable (ttf_of f)) -> Forall is_byte fid ->
  begins_text s -> Forall unichar s -> short_words 30 s ->
  exists long file_parts,
    (forall fuel, long <= fuel -> write_iter compress fuel ttf_of (doc_items default (CStr s)) style_empty fid = (file_parts, Finished))
    /\ let file := concat file_parts in
       ((N.of_nat (List.length file) < 10 ^ 10)%N ->
        exists seen texts lines shown,
          pdf_pages inflate file = Some seen /\ seen <> [] /\ Forall is_A4 seen
          /\ pdf_text inflate file = Some texts /\ List.length texts = List.length seen
          /\ cut_into_lines s lines /\ Forall2 shows_text shown lines
          /\ concat texts = map (legible (mkFont (TBuiltin Helvetica) false false)) (concat (concat shown))).
Proof.
  intros ENV compress inflate ttf_of default s fid AS SM EMB TP INV EM FB BT UN SW.
  apply (C89_string_read_back ENV compress inflate ttf_of default style_empty 30 s fid); try assumption.
  split; [reflexivity|]. split; [reflexivity|].
  split; [right; left; split; vm_compute; [discriminate|reflexivity]|].
  split; [split; [|split]; left; reflexivity|]. split; [reflexivity|].
  split; [right; left; split; vm_compute; [discriminate|reflexivity]|].
  split; vm_compute; discriminate.
Qed.
Print Assumptions C89_default_style.

(** ** [Document()] is one empty A4 page. *)
Theorem C89_empty_document : forall (ENV : Env QcNum) compress inflate ttf_of (default : @num QcNum * @params QcNum) sty fid,
  all_split -> glyphs_nonneg ->
  (forall b, inflate (compress b) = Some b) -> (forall f, ReaderDoc.embeddable (ttf_of f)) -> Forall is_byte fid ->
  exists long file_parts,
    (forall fuel, long <= fuel -> write_iter compress fuel ttf_of (doc_items default CNone) sty fid = (file_parts, Finished))
    /\ let file := concat file_parts in
       ((N.of_nat (List.length file) < 10 ^ 10)%N ->
        exists page, pdf_pages inflate file = Some [page] /\ is_A4 page /\ vp_instrs page = [] /\ pdf_text inflate file = Some [[]]).
Proof.
  intros ENV compress inflate ttf_of default sty fid AS GN INV EM FB. set (base := full_or full_default sty).
  assert (SI : Forall (standard_item base) (doc_items default CNone)) by (constructor; [constructor|constructor]).
  destruct (C80_writing_finishes_partial ENV compress ttf_of (doc_items default CNone) sty fid AS GN ltac:(discriminate)
              ltac:(constructor; [constructor|constructor]) SI) as (long & parts & W).
  exists long, parts. split; [exact W|]. intros file SZ.
  assert (L : laid long base (doc_items default CNone) 0 [(@default_page QcNum, [])]) by (constructor; constructor).
  assert (WR : written compress long ttf_of (doc_items default CNone) sty file [(@default_page QcNum, [])]).
  { exists fid, parts. split; [exact FB|]. split; [apply W; lia|]. split; [reflexivity|]. split; [exact SZ|exact L]. }
  assert (PR : Forall (printable_page base) [(@default_page QcNum, [])]).
  { constructor; [|constructor]. split; [|split]; [apply ordinary_plain; right; left; split; vm_compute; first [discriminate|reflexivity] ..|].
    intros ops E. cbn in E. apply Ok_inj in E. subst ops. split; constructor. }
  pose proof (standard_fine _ _ _ _ L SI PR) as FI.
  destruct (C72_pages_as_read _ ENV compress inflate long ttf_of _ sty file _ INV EM WR FI) as (seen & PS & F2).
  destruct (C73_text_extracted_partial _ ENV compress inflate long ttf_of _ sty file _ INV EM WR FI) as (texts & PT & F3).
  inversion F2 as [|? vp ? ? (B & R & ops & O & ME & TX) F2']; subst. inversion F2'; subst.
  inversion F3 as [|? t ? ? (ops' & O' & ET) F3']; subst. inversion F3'; subst.
  cbn in O, O'. apply Ok_inj in O, O'. subst ops ops'. exists vp. split; [exact PS|]. split.
  { destruct B as (x0 & y0 & x1 & y1 & E & Z0 & Z1 & (q & v & Q1 & V1 & N1) & (q' & v' & Q2 & V2 & N2)). split; [exact R|].
    exists x0, y0, x1, y1. split; [exact E|]. split; [exact Z0|]. split; [exact Z1|]. split; [exists v|exists v']; (split; [assumption|]).
    - cbn in Q1. injection Q1 as <-. exact N1.
    - cbn in Q2. injection Q2 as <-. exact N2. }
  split; [inversion ME; reflexivity|]. rewrite PT. reflexivity.
Qed.
Print Assumptions C89_empty_document.

(** The default page is the page of A4 with margins of 72 points (see C62). *)
Theorem C62_default_page : forall content rotate, exists p : page (@drawing QcNum),
  page_new content (PXY (mkXY (nZ 595) (nZ 842))) rotate (SSides (mkSides (nZ 72) (nZ 72) (nZ 72) (nZ 72))) [] = Ok p
  /\ pg_content p = content /\ pg_rotate p = rotate /\ pg_size p = pg_size (@default_page QcNum) /\ pg_columns p = pg_columns (@default_page QcNum)
  /\ pg_content (@default_page QcNum) = [] /\ pg_rotate (@default_page QcNum) = 0%Z.
Proof. intros content rotate. eexists. split; [reflexivity|]. repeat split. Qed.
Print Assumptions C62_default_page.

(** ** The hypotheses are met, and needed. *)
#[local] Instance ex_std : Env QcNum := {|
  charwidth := fun f c => match f_face f with TBuiltin b => nZ (builtin_width b (f_bold f) (f_italic f) c) | _ => nZ 500 end;
  kerntab := fun f => match f_face f with
                      | TBuiltin b => match snd (builtin_metrics b (f_bold f) (f_italic f)) with Some k => Some (fun x y => nZ (k x y)) | None => None end
                      | _ => None end;
  hyphenator := fun _ w => [w];
  is_wordchar := fun c => negb (c =? 32)%N |}.
Definition ink (c : char) : bool := negb (c =? 32)%N && negb (c =? 10)%N.
Fixpoint run (p : char -> bool) (s : str) : nat := match s with c :: r => if p c then S (run p r) else 0 | [] => 0 end.
Fixpoint word_run (s : str) : nat :=
  match s with c :: r => if ink c then S (word_run r) else run (fun c => c =? 32)%N s | [] => 0 end.
Fixpoint short_wordsb (n : nat) (s : str) : bool := (word_run s <=? n) && match s with [] => true | _ :: r => short_wordsb n r end.
Lemma run_spaces v b : Forall (eq 32%N) v -> List.length v <= run (fun c => c =? 32)%N (v ++ b).
Proof. induction 1 as [|c v <- _ IH]; cbn [List.length]; [lia|]. cbn [app run]. rewrite N.eqb_refl. lia. Qed.
Lemma word_run_ge u v b : ~ In 32%N u -> ~ In 10%N u -> Forall (eq 32%N) v -> List.length u + List.length v <= word_run (u ++ v ++ b).
Proof.
  induction u as [|c u IH]; intros N1 N2 V.
  - cbn [app List.length Nat.add]. destruct V as [|c v <- V]; [cbn; lia|]. cbn [app word_run]. change (ink 32) with false. cbn iota.
    apply (run_spaces (32%N :: v)). constructor; auto.
  - cbn [app word_run]. assert (I : ink c = true). { unfold ink. destruct (N.eqb_spec c 32) as [->|_]; [destruct N1; left; reflexivity|]. destruct (N.eqb_spec c 10) as [->|_]; [destruct N2; left; reflexivity|reflexivity]. }
    rewrite I. cbn [List.length]. assert (H : List.length u + List.length v <= word_run (u ++ v ++ b)) by (apply IH; [intros H; apply N1; right; exact H|intros H; apply N2; right; exact H|exact V]). lia.
Qed.
Lemma short_checked n s : short_wordsb n s = true -> short_words n s.
Proof.
  intros H a u v b E N1 N2 V. revert s H E. induction a as [|c a IH]; intros s H E.
  - subst s. cbn [app] in H. pose proof (word_run_ge u v b N1 N2 V). destruct (u ++ v ++ b); cbn [short_wordsb] in H; apply andb_true_iff in H as [H _]; apply Nat.leb_le in H; lia.
  - subst s. cbn [app short_wordsb] in H. apply andb_true_iff in H as [_ H]. eapply IH; [exact H|reflexivity].
Qed.
Definition ex_text : str := str_of "To be, or not to be, that is the question: Whether 'tis nobler in the mind to suffer the slings and arrows of outrageous fortune," ++ 13%N :: 10%N :: str_of "or not." ++ [8486; 10]%N.
Definition ex_file : bytes := concat (fst (write_iter (fun b => b) 100 ex_ttfs (doc_items ex_default (CStr ex_text)) style_empty [1; 2]%N)).
Example C89_example :
  @all_split QcNum ex_std /\ standard_metrics ex_std /\ (forall f, is_builtin f = false -> sound_font f)
  /\ (0 < fst ex_default)%Qc /\ ReaderDoc.embeddable ex_ttf
  /\ begins_text ex_text /\ Forall unichar ex_text /\ short_words 30 ex_text
  /\ pdf_text Some ex_file = Some [str_of "To be, or not to be, that is the question: Whether 'tis nobler in the mind to suffer theslings and arrows of outrageous fortune,or not.?"].
Proof.
  split; [intros h w N; split; [cbn; apply app_nil_r|]; repeat constructor; exact N|].
  split.
  { intros b x y. cbn [charwidth kerntab ex_std f_face f_bold f_italic]. cbv zeta. split; [reflexivity|].
    destruct (snd (builtin_metrics b x y)); [reflexivity|exact Logic.I]. }
  split; [intros [[b|k] x y] B c; [discriminate|]; split; [discriminate|]; intros a; split; [discriminate|]; left; reflexivity|].
  split; [reflexivity|]. split; [split; [reflexivity|eexists; split; reflexivity]|]. split; [exact Logic.I|].
  split; [apply (forallb_ok (fun c => c <? 1114112)%N); [intros c; apply N.ltb_lt|vm_compute; reflexivity]|].
  split; [apply short_checked; vm_compute; reflexivity|]. vm_compute. reflexivity.
Qed.
(** A word that does not fit a line of the page (45 times "W", here without a place to
    hyphenate) is a RuntimeError, however long one waits: nothing but the header is written. *)
Theorem C89_long_word_refuted : forall fuel compress ttf_of fid, 300 <= fuel ->
  write_iter compress fuel ttf_of (doc_items ex_default (CStr (repeat 87%N 45))) style_empty fid = ([header], Raised ERuntime).
Proof.
  intros fuel compress ttf_of fid L. unfold write_iter, doc_objects. cbn [doc_items pages_gen item_gen auto_gen].
  set (doc := fun i : nat => pf_new default_page).
  assert (E : block_columns fuel (BPara (plain_para ex_default (repeat 87%N 45))) (full_or full_default style_empty) (flat_todo doc) = Err ERuntime).
  { rewrite (Fuel.block_columns_stable _ _ _ 300 fuel L).
    - vm_compute. reflexivity.
    - vm_compute. discriminate. }
  rewrite E. reflexivity.
Qed.
Print Assumptions C89_long_word_refuted.
(** Two paragraphs for [C89_paragraphs_read_back], one laid out by first-fit with a word too
    wide for the page and text in bold and in red *)
Definition ex_two : list (@para QcNum) :=
  [mkPara [IStr (repeat 87%N 45); ISpan (@mkStyle QcNum None (Some (nZ 20)) (Some true) None (Some (@mkRGB QcNum 1%Qc 0%Qc 0%Qc)) None None) [IStr (str_of "bold")]] style_empty ALeft 0%Qc true None;
   plain_para ex_default (str_of "end.")].
Example C89_paragraphs_example :
  let base := full_or full_default (@style_empty QcNum) in
  room_for (Q2Qc 698) (fun _ : Z => @default_page QcNum) /\ wide (Q2Qc 451) (fun _ : Z => @default_page QcNum) /\ good_full ordinary base
  /\ Forall (fun p => layable (Q2Qc 698) (Q2Qc 451) base p /\ ordinary_para base p /\ standard_fonts (para_fonts p base)
                   /\ Forall (fun x => begins_text (fst x)) (span_strings base (ISpan (p_style p) (p_content p)))) ex_two
  /\ pdf_text Some (concat (fst (write_iter (fun b => b) 100 ex_ttfs [DAuto (map (@BPara QcNum) ex_two) (fun _ => default_page)] style_empty [1; 2]%N)))
     = Some [repeat 87%N 45 ++ str_of "boldend."].
Proof.
  assert (O : forall x : Qc, (Qcleb (Q2Qc (1 # 10000)) x && Qcltb x (Q2Qc (999999 + (1 # 2))))%bool = true -> ordinary x).
  { intros x H. apply andb_true_iff in H as [H1 H2]. right; left. split; [apply Qcleb_le, H1|apply Qcltb_lt, H2]. }
  intros base. split; [intros k; split; [discriminate|constructor; [vm_compute; discriminate|constructor]]|].
  split; [intros k; constructor; [vm_compute; discriminate|constructor]|].
  split; [split; [apply O; reflexivity|split; [|split]; left; reflexivity]|].
  split; [|vm_compute; reflexivity]. constructor; [|constructor; [|constructor]].
  - split; [split; [split; [reflexivity|split; [exact Logic.I|split; [split; [reflexivity|repeat constructor]|exact Logic.I]]]|]|].
    { split; [split; vm_compute; [reflexivity|discriminate]|exact Logic.I]. }
    split; [|split].
    + split; [reflexivity|]. split; [reflexivity|]. split; [apply O; vm_compute; reflexivity|]. apply good_span. split; [split; discriminate|].
      constructor; [apply (forallb_ok (fun c => c <? 1114112)%N); [intros c; apply N.ltb_lt|vm_compute; reflexivity]|]. constructor; [|constructor].
      apply good_span. split; [split|].
      * intros z [= <-]. apply O. reflexivity.
      * intros c [= <-]. split; [apply O; reflexivity|]. split; left; reflexivity.
      * constructor; [|constructor]. apply (forallb_ok (fun c => c <? 1114112)%N); [intros c; apply N.ltb_lt|vm_compute; reflexivity].
    + repeat constructor.
    + constructor; [exact Logic.I|]. constructor; [exact Logic.I|constructor].
  - split; [apply (string_layable 30); [apply C89_example|apply C89_example|reflexivity| |apply short_checked; vm_compute; reflexivity]|].
    { split; [reflexivity|]. split; [reflexivity|]. split; [apply O; vm_compute; reflexivity|]. split; [split; [|split]; left; reflexivity|].
      split; [reflexivity|]. split; [apply O; vm_compute; reflexivity|]. split; vm_compute; discriminate. }
    split; [|split].
    + split; [reflexivity|]. split; [reflexivity|]. split; [apply O; vm_compute; reflexivity|]. apply good_span. split; [split; discriminate|].
      constructor; [apply (forallb_ok (fun c => c <? 1114112)%N); [intros c; apply N.ltb_lt|vm_compute; reflexivity]|constructor].
    + repeat constructor.
    + constructor; [exact Logic.I|constructor].
Qed.
