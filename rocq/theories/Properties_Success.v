(** * C80: documents that can be laid out are written *)
From Coq Require Import String QArith Qcanon.
From Verif Require Import Base Gfmt Atoms GfmtProofs AtomsProofs FileProofs FontProofs Num Fonts State Style Words WordsSpec Parse Render RenderSpec Firstfit
  KnuthPlass Optimum Properties_KnuthPlass Properties_Optimum Common Draw Layout LayoutSpec LayoutProofs LayoutPages Properties_Layout FontsUsed
  Document DocumentSpec DocumentProofs Builtins Properties_Builtins Properties_Fonts Properties_Words Properties_Text Properties_Document ReaderStd Fuel LayoutTotal SuccessProofs LayoutRules SuccessDoc.
Local Open Scope list_scope.
Open Scope nat_scope.

(** ** What is asked of a document.
    - [drawable]: a polyline's points are pairs (the points after the first may be [XY]s);
    - [layable h width base p]: all font sizes in effect are positive, a line of the
      paragraph is at most [h] high, and its lines can be broken: first-fit always can;
      optimal needs a positive tolerance and, if justified, an indent that is not
      negative; if ragged, one font and size whose space has a width, and no unbreakable
      piece of the text (with its hyphen, or indented) wider than [width];
    - [after_rule]: a rule, or such a paragraph laid out by first-fit;
    - [can_lay]: pages have drawings that can be drawn; automatic pages have such
      paragraphs, then blocks as [after_rule] says, and templates with columns at least
      [h] high and [width] wide.
    The fuel of the model stands for running long enough: the theorems hold from some
    fuel on, and what is written does not depend on it. *)
Theorem C80_pages_are_laid_out : forall (ENV : Env QcNum) ps rest template base pnum (h width : Qc),
  all_split -> glyphs_nonneg -> (0 <= h)%Qc -> (0 < width)%Qc ->
  room_for h template -> wide width template -> Forall (layable h width base) ps -> Forall (after_rule h width base) rest ->
  exists n pages, forall fuel, n <= fuel -> auto_pages fuel (map (@BPara QcNum) ps ++ rest) template base pnum = Ok pages.
Proof.
  intros ENV ps rest template base pnum h width HY GN H0 W0 RF WD L A.
  destruct (blocks_total h width base ps rest template pnum HY GN H0 W0 RF WD L A) as (n & x & E).
  exists n. eexists. intros fuel LF. unfold auto_pages. rewrite (E fuel LF). cbn [bind]. reflexivity.
Qed.
Print Assumptions C80_pages_are_laid_out.
(** In the standard fonts writing finishes. *)
Theorem C80_writing_finishes_partial : forall (ENV : Env QcNum) compress ttf_of items sty fid,
  all_split -> glyphs_nonneg -> items <> [] ->
  Forall (can_lay (full_or full_default sty)) items -> Forall (standard_item (full_or full_default sty)) items ->
  exists n out, forall fuel, n <= fuel -> write_iter compress fuel ttf_of items sty fid = (out, Finished).
Proof. intros ENV compress ttf_of items sty fid. apply write_total_standard. Qed.
Print Assumptions C80_writing_finishes_partial.
(** With embedded fonts the pages are always rendered; writing finishes if every font
    embedded has two-byte glyph ids and shows less than 65535 different characters. *)
Theorem C80_embedded_finishes_partial : forall (ENV : Env QcNum) compress ttf_of items sty fid,
  all_split -> glyphs_nonneg -> items <> [] ->
  Forall (can_lay (full_or full_default sty)) items -> (forall f, embeddable (ttf_of f)) ->
  exists n pages fonts codes,
   (forall fuel, n <= fuel ->
      page_objects (full_or full_default sty) (fst (pages_gen fuel (full_or full_default sty) items 0)) 4 [] [] = (pages, Ok (fonts, codes)))
   /\ ((forall f, In f fonts -> is_builtin f = false -> (N.of_nat (List.length (cm_entries (cs_get codes f))) < 65535)%N) ->
       exists out, forall fuel, n <= fuel -> write_iter compress fuel ttf_of items sty fid = (out, Finished)).
Proof. intros ENV compress ttf_of items sty fid. apply write_total_embedded. Qed.
Print Assumptions C80_embedded_finishes_partial.

(** The standard fonts, with the metrics shipped, meet what is asked of the fonts. *)
Theorem C80_standard_fonts : forall (ENV : Env QcNum), standard_metrics ENV ->
  (forall f, is_builtin f = true -> 0 < spacewidth f)%Qc
  /\ ((forall f, is_builtin f = false -> forall c, 0 <= charwidth f c /\ forall a, 0 <= charwidth f c + charkern f a c)%Qc -> glyphs_nonneg).
Proof.
  intros ENV SM.
  assert (W : forall f c, is_builtin f = true -> (0 < charwidth f c)%Qc).
  { intros [[b|] x y] c B; [|discriminate]. destruct (SM b x y) as (E & _). rewrite E.
    destruct (C68_kerning_keeps_direction b x y c c) as (_ & _ & P). pose proof (pos_sum (builtin_width b x y c) 0) as H.
    rewrite Z.add_0_r in H. specialize (H P). replace (nZ (NUM := QcNum) (builtin_width b x y c)) with (nZ (NUM := QcNum) (builtin_width b x y c) + nZ (NUM := QcNum) 0)%Qc; [exact H|].
    change (nZ (NUM := QcNum) 0) with 0%Qc. apply Qcplus_0_r. }
  split; [intros f B; apply W, B|]. intros E f c. destruct (is_builtin f) eqn:B; [|apply E, B].
  split; [apply Qclt_le_weak, W, B|]. intros a. apply Qclt_le_weak. apply C68_charkern; assumption.
Qed.
Print Assumptions C80_standard_fonts.

(** ** An example: a string (an optimal, ragged paragraph), a page with drawings, and
    justified and first-fit paragraphs around a rule that does not fit *)
#[local] Existing Instance ex_words.
Definition ex_default : @num QcNum * @params QcNum := (1%Qc, ex_params).
Definition ok_line : list (@drawing QcNum) :=
  [DPolyline [PTup [nZ 1; nZ 2]; PXY (mkXY (nZ 3) (nZ 4))] true None (Some (@mkRGB QcNum 0%Qc 0%Qc 1%Qc));
   DText ex_loc [IStr (str_of "Hi")] style_empty ALeft].
Definition ok_page : @page QcNum (@drawing QcNum) := mkPage ok_line (@A4 QcNum) 0 (pg_columns (@default_page QcNum)).
Definition ok_justified : @para QcNum := mkPara [IStr (str_of "one two THREE"); ISpan (@mkStyle QcNum None (Some (nZ 20)) None None None None None) [IStr (str_of "four")]]
  style_empty AJustify (nZ 5) true (Some ex_default).
Definition ok_simple : @para QcNum := mkPara [IStr (str_of "anything goes")] style_empty ARight (nZ 5) false None.
Definition ok_items : list (@ditem QcNum) :=
  doc_items ex_default (CStr (str_of "Hello WoRld and more")) ++ [DPage ok_page; DAuto [BPara ok_justified; BRule (mkRGB n0 n0 n0) (mkSides (nZ 1000) n0 n0 n0); BPara ok_simple] (fun _ => ok_page)].
Definition fit_check (p : @para QcNum) (width : Qc) (g : list passage) (st : @state QcNum) : bool :=
  match into_words g st with
  | Ok (_, ws, _) => match indent_first ws (p_indent p) with
                     | Ok ws' => forallb (fun w => forallb (fun b => Qcleb (box_advance b) width) (end_forms w)) ws'
                     | Err _ => true
                     end
  | Err _ => true
  end.
Lemma fit_checked p (f0 : font) (z0 width : @num QcNum) g : (forall c sp h, fit_check p width g (@mkState QcNum f0 z0 c sp h) = true) -> pieces_fit p f0 z0 width g.
Proof.
  intros H [f z c sp h] cmd ws ex ws' E1 E2 W I w b Iw Ib. cbn in E1, E2. subst f z. specialize (H c sp h). unfold fit_check in H.
  rewrite W, I in H. rewrite forallb_forall in H. specialize (H w Iw). rewrite forallb_forall in H. specialize (H b Ib).
  apply Qcleb_le. exact H.
Qed.
Lemma ex_glyphs : @glyphs_nonneg ex_words.
Proof.
  intros f c. split; [discriminate|]. intros a. unfold charkern. cbn [kerntab ex_words charwidth].
  destruct (is_builtin f); [|discriminate]. destruct (_ && _)%bool; discriminate.
Qed.
Definition ok_ttf : ttf :=
  {| ttf_name := bs "Ex"; ttf_dw := Some 500%Q; ttf_flags := 4; ttf_bbox := [0; 0; 1; 1]%Z;
     ttf_italic_angle := 0; ttf_ascent := 700; ttf_descent := (-200); ttf_cap_height := 650; ttf_stem_v := 80;
     ttf_gid := fun _ c => (c mod 3000)%N; ttf_file := fun _ => [] |}.
Example C80_example : @all_split QcNum ex_words /\ @glyphs_nonneg ex_words /\ ok_items <> []
  /\ Forall (can_lay (full_or full_default style_empty)) ok_items /\ Forall (standard_item (full_or full_default style_empty)) ok_items
  /\ embeddable ok_ttf
  /\ snd (write_iter (fun b => b) 50 ex_ttfs ok_items style_empty [1; 2]%N) = Finished.
Proof.
  assert (DR : Forall drawable ok_line).
  { constructor; [|constructor; [exact I|constructor]]. split; [eexists; reflexivity|]. constructor; [eexists; reflexivity|constructor]. }
  split; [apply ex_splits|]. split; [apply ex_glyphs|]. split; [discriminate|]. split; [|split; [|split]].
  - constructor; [|constructor; [|constructor; [|constructor]]].
    + exists [plain_para ex_default (str_of "Hello WoRld and more")], [], (Q2Qc 100), (Q2Qc 100).
      split; [reflexivity|]. split; [discriminate|]. split; [reflexivity|].
      split; [intros n; split; [discriminate|constructor; [vm_compute; discriminate|constructor]]|].
      split; [intros n; constructor; [vm_compute; discriminate|constructor]|].
      split; [|split; [constructor|intros n; constructor]]. constructor; [|constructor].
      split; [split; [reflexivity|repeat constructor]|]. split; [split; vm_compute; [reflexivity|discriminate]|].
      split; [reflexivity|]. cbn [is_justify p_align plain_para].
      split; [split; [split; reflexivity|repeat constructor]|]. split; [reflexivity|].
      assert (EQ : splitlines (flatten (full_or (full_or full_default style_empty) style_empty) style_empty [IStr (str_of "Hello WoRld and more")])
                   = [[(NoOp, str_of "Hello WoRld and more")]]) by reflexivity.
      cbn [p_style p_content plain_para]. rewrite EQ. constructor; [|constructor].
      apply fit_checked. intros c sp h. destruct h; vm_compute; reflexivity.
    + exact DR.
    + exists [ok_justified], [BRule (mkRGB n0 n0 n0) (mkSides (nZ 1000) n0 n0 n0); BPara ok_simple], (Q2Qc 100), (Q2Qc 100).
      split; [reflexivity|]. split; [discriminate|]. split; [reflexivity|].
      split; [intros n; split; [discriminate|constructor; [vm_compute; discriminate|constructor]]|].
      split; [intros n; constructor; [vm_compute; discriminate|constructor]|].
      split; [|split; [|intros n; exact DR]]; [constructor; [|constructor]|constructor; [exact I|constructor; [split; [|reflexivity]|constructor]]].
      * split; [split; [reflexivity|split; [exact I|split; [split; [reflexivity|repeat constructor]|exact I]]]|].
        split; [split; vm_compute; [reflexivity|discriminate]|]. split; [reflexivity|]. cbn. discriminate.
      * split; [split; [reflexivity|repeat constructor]|]. split; [split; vm_compute; [reflexivity|discriminate]|]. exact I.
  - repeat constructor.
  - split; [discriminate|]. intros codes c. cbn. pose proof (N.mod_lt c 3000). lia.
  - vm_compute. reflexivity.
Qed.

(** ** What is asked cannot be left out. *)
(** A polyline that starts with an [XY] is a TypeError while its page is written; *)
Theorem C80_polyline_refuted : forall (ENV : Env QcNum) compress fuel ttf_of sty fid, exists page,
  snd (write_iter compress fuel ttf_of [DPage page] sty fid) = Raised EType.
Proof.
  intros ENV compress fuel ttf_of sty fid.
  exists (mkPage [DPolyline [PXY (mkXY (nZ 3) (nZ 4))] true None None] (@A4 QcNum) 0 []). 
  unfold write_iter, doc_objects. cbn [pages_gen item_gen fst snd page_objects app]. unfold page_bytes. cbn [rp_content rpage_of pg_content drawings_bytes draw_ops polyline_ops first_point bind fst snd].
  unfold write_gen. cbn [fst snd chunks_gen].
  destruct (write_total compress (page_dict (rpage_of (mkPage [DPolyline [PXY (mkXY (nZ 3) (nZ 4))] true None None] (@A4 QcNum) 0 []) []) 4)) as (b & E); [cbn; tauto|].
  unfold write_obj. cbn [fst snd]. rewrite E. reflexivity.
Qed.
Print Assumptions C80_polyline_refuted.
(** and a word that does not fit its column is a RuntimeError, in a paragraph with the
    default settings: nothing but the header is written, however long one waits. *)
Definition narrow_page : @page QcNum (@drawing QcNum) := mkPage [] (@A4 QcNum) 0 [@mkColumn QcNum (mkXY (nZ 72) (nZ 72)) (nZ 20) (nZ 600)].
Theorem C80_wide_word_refuted : exists (ENV : Env QcNum) (text : str), @all_split QcNum ENV /\ @glyphs_nonneg ENV /\
  forall fuel compress ttf_of fid, 50 <= fuel ->
    write_iter compress fuel ttf_of [DAuto [BPara (plain_para ex_default text)] (fun _ => narrow_page)] style_empty fid = ([header], Raised ERuntime).
Proof.
  exists ex_words, (str_of "Hello"). split; [apply ex_splits|]. split; [apply ex_glyphs|]. intros fuel compress ttf_of fid L.
  unfold write_iter, doc_objects. cbn [pages_gen item_gen auto_gen].
  set (doc := fun i : nat => pf_new narrow_page).
  assert (E : block_columns fuel (BPara (plain_para ex_default (str_of "Hello"))) (full_or full_default style_empty) (flat_todo doc) = Err ERuntime).
  { rewrite (block_columns_stable _ _ _ 50 fuel L).
    - vm_compute. reflexivity.
    - vm_compute. discriminate. }
  rewrite E. reflexivity.
Qed.
Print Assumptions C80_wide_word_refuted.

(** A rule that does not fit ends the document: the column it is put into has a negative
    rest, and a one-line paragraph after it, with the default settings, is an IndexError.
    The same document without the rule, or with a rule that fits, is written. *)
Definition tall_page (h : Z) : @page QcNum (@drawing QcNum) := mkPage [] (@A4 QcNum) 0 [@mkColumn QcNum (mkXY (nZ 72) (nZ 72)) (nZ 300) (nZ h)].
Definition rule_margin : @sides QcNum := mkSides (nZ 6) (nZ 0) (nZ 6) (nZ 0).
Lemma auto_gen_stable {ENV : Env QcNum} n fuel base blocks : n <= fuel -> forall pending doc,
  snd (auto_gen n blocks base pending doc) <> Err EFuel -> auto_gen fuel blocks base pending doc = auto_gen n blocks base pending doc.
Proof.
  intros L. induction blocks as [|b r IH]; intros pending doc H; cbn [auto_gen] in *; [reflexivity|].
  destruct (block_columns n b base (flat_todo doc)) as [cols|e] eqn:E.
  - rewrite (block_columns_stable _ _ _ n fuel L) by (rewrite E; discriminate). rewrite E. cbn [bind] in *.
    destruct (fill_into cols doc) as [[[|p ps] doc']|e]; [apply IH; exact H| |reflexivity]. cbn [snd] in H.
    rewrite IH by exact H. reflexivity.
  - cbn [bind snd] in H. rewrite (block_columns_stable _ _ _ n fuel L) by (rewrite E; intros X; apply H; injection X as ->; reflexivity). rewrite E. reflexivity.
Qed.
Theorem C80_rule_refuted : exists (ENV : Env QcNum) (text1 text2 : str), @all_split QcNum ENV /\ @glyphs_nonneg ENV /\
  let blocks1 := [BPara (plain_para ex_default text1); BPara (plain_para ex_default text2)] in
  let blocks2 := [BPara (plain_para ex_default text1); BRule (mkRGB n0 n0 n0) rule_margin; BPara (plain_para ex_default text2)] in
  (forall fuel compress ttf_of fid, 50 <= fuel ->
    snd (write_iter compress fuel ttf_of [DAuto blocks2 (fun _ => tall_page 20)] style_empty fid) = Raised EIndex)
  /\ (exists ps, auto_pages 50 blocks1 (fun _ => tall_page 20) (full_or full_default style_empty) 1 = Ok ps)
  /\ (exists ps, auto_pages 50 blocks2 (fun _ => tall_page 60) (full_or full_default style_empty) 1 = Ok ps).
Proof.
  exists ex_words, (str_of "Hello"), (str_of "world"). split; [apply ex_splits|]. split; [apply ex_glyphs|]. cbn zeta.
  assert (OKp : forall A (x : res A), match x with Ok _ => true | Err _ => false end = true -> exists ps, x = Ok ps)
    by (intros A [x|e] H; [eauto|discriminate]).
  split; [|split; apply OKp; vm_compute; reflexivity].
  intros fuel compress ttf_of fid L.
  unfold write_iter, doc_objects. cbn [pages_gen item_gen].
  set (base := full_or full_default style_empty). set (blocks := [_; _; _]). set (doc := fun i : nat => _).
  assert (E : snd (auto_gen (ENV := ex_words) 50 blocks base [] doc) = Err EIndex).
  { assert (B : match snd (auto_gen (ENV := ex_words) 50 blocks base [] doc) with Err EIndex => true | _ => false end = true) by (vm_compute; reflexivity).
    destruct (snd _) as [x|[]]; try discriminate. reflexivity. }
  rewrite (auto_gen_stable (ENV := ex_words) 50 fuel _ _ L) by (rewrite E; discriminate).
  rewrite E. cbn [fst snd].
  assert (D : forallb (fun z => match rp_content (rpage_of (pf_base (snd z)) (flat_map cf_ops (pf_done (snd z)))) with [] => true | _ => false end)
      (fst (auto_gen (ENV := ex_words) 50 blocks base [] doc)) = true) by (vm_compute; reflexivity).
  clear E. revert D. generalize (fst (auto_gen (ENV := ex_words) 50 blocks base [] doc)). clearbody base blocks doc. intros ys D.
  destruct (page_objects_total (ENV := ex_words) base (fun _ => True) (map (fun y => (fst y, rpage_of (pf_base (snd y)) (flat_map cf_ops (pf_done (snd y))))) ys))
    with (i := 4%N) (r := @nil font) (cs := @nil (font * cidmap)) as (objs & r & cs & EO & _ & F & _).
  - apply ex_splits.
  - rewrite Forall_map. apply Forall_forall. intros z HI. cbn [fst snd].
    rewrite forallb_forall in D. specialize (D z HI). destruct (rp_content _) as [|d l]; [|discriminate]. split; [constructor|]. split; [|constructor].
    apply Forall_forall. auto.
  - constructor.
  - rewrite EO. cbn [fst snd]. unfold write_gen. destruct (chunks_total compress objs (Raised EIndex) F) as (l & -> & _). reflexivity.
Qed.
Print Assumptions C80_rule_refuted.
