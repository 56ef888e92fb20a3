(** * C94: in doubles, writing a document finishes.  [Document.write] refuses a number that is
    not finite (an assertion of [Real.write]) in an adjustment between glyphs and in the size of
    a page.  Rounding never makes such a number: the adjustments stay finite, through indenting
    and hyphenation, and line breaking finds all the lines. *)
From Coq Require Import ZArith QArith Bool Reals Qreals String.
From Flocq Require Import Core IEEE754.BinarySingleNaN.
From Verif Require Import Base Atoms Num Float64 FloatProofs NumInstances RoundErr Fonts State TextSpec StateProofs
  Words WordsSpec WordProofs WordOps Parse Firstfit FirstfitProofs LineSpec Common FontsUsed Layout OptimumTotal Properties_Optimum LayoutTotal Builtins BuiltinTables Properties_Words
  Properties_Builtins Properties_Firstfit FloatLines FloatWidths FloatText FloatPara FloatTotal LawTotal SuccessProofs ShortWords LayoutPages LayoutSpec NumLaws LayoutLaws LayoutProofs Render Draw TextBlock PlainDoc Style Properties_Plain Properties_Float Properties_Round Properties_RoundOk
  Document DocumentSpec DocumentProofs ReaderStd SuccessDoc WritesTotal FloatWrites FloatJustified.
From Coq Require Import Lra Lia.
Local Open Scope string_scope. Local Open Scope list_scope.
Open Scope R_scope.
Local Notation real x := (@B2R 53 1024 x).
Local Notation finite x := (@is_finite 53 1024 x = true).

Section Items.
Context (pow : b64 -> nat -> b64) {ENV : Env (Float64 pow)}.
(** A page of finite size; a polyline starts with a point that can be used *)
Definition good_page (p : @page (Float64 pow) (@drawing (Float64 pow))) : Prop :=
  finite (px (pg_size p)) /\ finite (py (pg_size p)) /\ Forall can_draw (pg_content p).
(** Pages, and automatic pages of paragraphs and rules (as in C91) *)
Definition good_item (base : @full (Float64 pow)) (i : @ditem (Float64 pow)) : Prop :=
  match i with
  | DPage p => good_page p
  | DAuto blocks template => exists h : b64,
      finite h /\ 0 <= real h /\ modest_columns pow h template
      /\ Forall (modest_block pow ENV h base) blocks
      /\ forall n, good_page (template n)
  end.
Hypothesis HY : @all_split (Float64 pow) ENV.
Hypothesis MW : metrics_within pow 8000.
Hypothesis HA : hyphens_advance pow ENV 1.
Lemma page_good p : good_page p -> page_writes p.
Proof. intros (A & B & C). split; [split|exact C]; apply fin_adj; assumption. Qed.
Lemma kerns_good : forall f a b, @adj (Float64 pow) (nneg (charkern f a b)).
Proof. intros f a b. apply fin_neg_adj. destruct MW as (_ & K). apply K. Qed.
Lemma item_good base i : good_item base i -> item_writes base i.
Proof.
  destruct i as [p|blocks template]; cbn [good_item].
  { intros P. split; [exact Logic.I|]. intros q cols (-> & ->). split; [apply page_good, P|constructor]. }
  intros (h & Fh & H0 & T & B & GP).
  destruct (nZ64 pow 10000 ltac:(lia)) as (FH & VH).
  assert (EN := ends_modest pow h (@nZ (Float64 pow) 10000) HY MW HA Fh FH H0 VH base blocks template).
  assert (LI := fun fuel pnum pages => lines_modest pow h (@nZ (Float64 pow) 10000) HY MW HA Fh FH H0 VH
    (fun _ l => words_finite (tl_words l)) fuel base blocks template pnum pages T B).
  destruct numbers as (PE & (N1 & N2 & N3 & N4 & N5 & N6 & N7) & NC & NH). destruct MW as (MW1 & MW2).
  split.
  - cbn [item_ends]. intros pnum. apply EN; assumption.
  - intros p cols ((n & ->) & fuel & pnum & pages & E & IP). split; [apply page_good, GP|].
    apply LI in E; [|].
    2:{ intros q I lead. rewrite Forall_forall in B. destruct (B _ I) as (FF & FX & HX & _). destruct (is_justify (p_align q)) eqn:J.
        - apply (justified_writes pow); auto.
        - apply (unjustified_writes pow 8000 6 24 20 27 32); auto; try lra. unfold val. lra. }
    rewrite Forall_forall in E. specialize (E _ IP). cbn [snd] in E. eapply Forall_impl; [|exact E].
    intros c C. unfold lines_fit, col_shapes in C. rewrite Forall_map in C. eapply Forall_impl; [|exact C].
    intros [xy s] S. cbn [snd] in *. destruct s; [exact S|exact Logic.I].
Qed.
End Items.

Theorem C94_writing_finishes : forall pow (ENV : Env (Float64 pow)) compress ttf_of (items : list (@ditem (Float64 pow))) sty fid,
  @all_split (Float64 pow) ENV -> metrics_within pow 8000 -> hyphens_advance pow ENV 1 -> items <> [] ->
  Forall (good_item pow (full_or full_default sty)) items -> Forall (standard_item (full_or full_default sty)) items ->
  exists n out, forall fuel, (n <= fuel)%nat -> write_iter compress fuel ttf_of items sty fid = (out, Finished).
Proof.
  intros pow ENV compress ttf_of items sty fid HY MW HA NE GI ST.
  apply (@writes_standard (Float64 pow) ENV compress HY (zero_adj pow) (kerns_good pow MW) ttf_of items sty fid NE).
  - eapply Forall_impl; [|exact GI]. intros i. apply item_good; assumption.
  - exact ST.
Qed.
Print Assumptions C94_writing_finishes.
(** With embedded fonts, writing finishes if every font embedded has two-byte glyph ids and
    shows less than 65535 different characters. *)
Theorem C94_embedded_finishes : forall pow (ENV : Env (Float64 pow)) compress ttf_of (items : list (@ditem (Float64 pow))) sty fid,
  @all_split (Float64 pow) ENV -> metrics_within pow 8000 -> hyphens_advance pow ENV 1 -> items <> [] ->
  Forall (good_item pow (full_or full_default sty)) items -> (forall f, embeddable (ttf_of f)) ->
  exists n pages fonts codes,
   (forall fuel, (n <= fuel)%nat ->
      page_objects (full_or full_default sty) (fst (pages_gen fuel (full_or full_default sty) items 0)) 4 [] [] = (pages, Ok (fonts, codes)))
   /\ ((forall f, In f fonts -> is_builtin f = false -> (N.of_nat (List.length (cm_entries (cs_get codes f))) < 65535)%N) ->
       exists out, forall fuel, (n <= fuel)%nat -> write_iter compress fuel ttf_of items sty fid = (out, Finished)).
Proof.
  intros pow ENV compress ttf_of items sty fid HY MW HA NE GI EM.
  apply (@writes_embedded (Float64 pow) ENV compress HY (zero_adj pow) (kerns_good pow MW) ttf_of items sty fid NE).
  - eapply Forall_impl; [|exact GI]. intros i. apply item_good; assumption.
  - exact EM.
Qed.
Print Assumptions C94_embedded_finishes.

(** ** The hypotheses are met: a page with a polyline and a text, and automatic pages with two
    paragraphs in Helvetica 12. *)
Definition draw_page : @page (Float64 ex_pow) (@drawing (Float64 ex_pow)) :=
  mkPage [DPolyline [PTup [nZ 1; nZ 2]; PXY (mkXY (nZ 3) (nZ 4))] true None None; DText (mkXY (nZ 10) (nZ 20)) [IStr (str_of "To AVoid kerning")] style_empty ARight]
    (mkXY (nZ 300) (nZ 150)) 0 (pg_columns ok_page).
Definition two_paras : list (@para (Float64 ex_pow)) :=
  [@string_para (Float64 ex_pow) ok_text ARight (nZ 20) true; @string_para (Float64 ex_pow) ok_text AJustify n0 false].
Definition a_rule : @block (Float64 ex_pow) := BRule (mkRGB (nZ 0) (nZ 0) (nZ 0)) (mkSides (nZ 6) (nZ 0) (nZ 6) (nZ 0)).
Definition doc_items64 : list (@ditem (Float64 ex_pow)) := [DPage draw_page; DAuto (a_rule :: map (@BPara (Float64 ex_pow)) two_paras) (fun _ => ok_page)].
Example C94_example :
  @all_split (Float64 ex_pow) dbl_std /\ metrics_within ex_pow (ENV := dbl_std) 8000 /\ hyphens_advance ex_pow dbl_std 1 /\ doc_items64 <> []
  /\ Forall (good_item ex_pow (ENV := dbl_std) (full_or full_default style_empty)) doc_items64 /\ Forall (@standard_item (Float64 ex_pow) (full_or full_default style_empty)) doc_items64.
Proof.
  destruct C91_example as (E1 & E2 & E3 & E4 & E5). split; [exact E1|]. split; [exact E2|]. split; [exact E3|]. split; [discriminate|].
  assert (Z : forall z, (Z.abs z <= 10000)%Z -> finite (@nZ (Float64 ex_pow) z) /\ real (@nZ (Float64 ex_pow) z) = IZR z).
  { intros z H. apply (nZ64 ex_pow z). lia. }
  assert (GP : good_page ex_pow ok_page).
  { split; [apply Z; lia|]. split; [apply Z; lia|]. constructor. }
  split.
  - constructor; [|constructor; [|constructor]].
    + split; [apply Z; lia|]. split; [apply Z; lia|]. constructor; [|constructor; [exact Logic.I|constructor]].
      split; [eexists; reflexivity|]. constructor; [eexists; reflexivity|constructor].
    + exists (@nZ (Float64 ex_pow) 100). split; [apply Z; lia|]. split; [rewrite (proj2 (Z 100%Z ltac:(lia))); lra|].
      split; [exact E4|]. split; [|intros _; exact GP].
      change (full_or (@full_default (Float64 ex_pow)) style_empty) with ok_base.
      constructor.
      { cbn [modest_block a_rule s_top s_bottom]. cbv zeta. rewrite frac_real. split; [vm_compute; reflexivity|].
        replace 0 with (Q2R 0) by (unfold Q2R; cbn; lra). replace 10000 with (Q2R 10000) by (unfold Q2R; cbn; lra).
        split; apply Qreals.Qle_Rle; vm_compute; discriminate. }
      assert (M1 := Forall_inv E5).
      constructor; [exact M1|constructor; [|constructor]]. inversion E5 as [|? ? _ E6]; subst. assert (M2 := Forall_inv E6).
      exact M2.
  - constructor; [|constructor; [|constructor]]; cbn; repeat constructor.
Qed.

(** ** The sizes of pages have to be finite: a page of infinite width is an [AssertionError]. *)
Theorem C94_infinite_size : forall pow (ENV : Env (Float64 pow)) compress fuel ttf_of sty fid, exists page : @page (Float64 pow) (@drawing (Float64 pow)),
  pg_content page = [] /\ finite (py (pg_size page)) /\
  snd (write_iter compress fuel ttf_of [DPage page] sty fid) = Raised EAssertion.
Proof.
  intros pow ENV compress fuel ttf_of sty fid.
  exists (@mkPage (Float64 pow) (@drawing (Float64 pow)) [] (@mkXY (Float64 pow) (B754_infinity false) (@nZ (Float64 pow) 842)) 0 []).
  split; [reflexivity|]. split; [apply (nZ64 pow 842); lia|]. reflexivity.
Qed.
Print Assumptions C94_infinite_size.
