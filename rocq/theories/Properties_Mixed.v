(** * C74 for paragraphs in several fonts.
    Specifications: ReaderSpec ([pdf_text]: a PDF reader), ReaderText ([legible]), ReaderDraw
    ([drawing_text]), LineSpec ([conserves]), LayoutSpec ([para_lines]), LayoutStyle
    ([lone_space]), LayoutText ([plain]: a word that does not change the style). *)
From Coq Require Import String QArith Qcanon.
From Verif Require Import Base Gfmt GfmtProofs Atoms PdfSpec AtomsProofs FileProofs NameProofs FontSpec FontProofs ContentSpec ContentProofs ReaderSpec.
From Verif Require Import Num Fonts State Style TextSpec StateProofs Words WordsSpec Parse Render RenderSpec RenderProofs Firstfit LineSpec KnuthPlass
  Optimum Common Show Draw DrawSpec TextBlock Layout LayoutSpec LayoutProofs LayoutPages LayoutRoom LayoutStyle ContentOps FontsUsed ReaderText ContentText Document DocumentSpec DocumentProofs
  ReaderDoc ReaderStd ReaderParas ReaderDraw ReaderFonts Properties_Style Properties_Fonts Properties_Words Properties_Text Properties_Layout Properties_Document Properties_Reader.
Local Open Scope list_scope.
Open Scope nat_scope.

(** the first word of a piece of a paragraph does not change the style (see C54) *)
Definition steady {NUM : Num} (s : shaped) : Prop := Forall LayoutText.plain (first_word (shape_lines s)).
(** the characters of laid out text *)
Definition shapes_chars {NUM : Num} (l : list shaped) : list schar :=
  flat_map (fun l => measured_all (tl_words l)) (flat_map shape_lines l).

Section S.
Context {NUM : Num} {ENV : Env NUM}.
Lemma shapes_chars_app a b : shapes_chars (a ++ b) = shapes_chars a ++ shapes_chars b.
Proof. unfold shapes_chars. rewrite !flat_map_app. reflexivity. Qed.
Lemma cols_shown cs : Forall (fun s => shown_styles s /\ steady s) (flat_map col_shapes cs) ->
  forall v, shown_chars (fst (view v (flat_map cf_ops cs))) = map want (shapes_chars (flat_map col_shapes cs)).
Proof.
  induction cs as [|c cs IH]; intros F v; [reflexivity|]. cbn [flat_map] in *. apply Forall_app in F as (F1 & F2).
  rewrite view_app. cbn [fst]. rewrite shown_chars_app, IH by exact F2. rewrite shapes_chars_app, map_app. f_equal.
  unfold cf_ops, col_shapes in *. revert v. induction (cf_blocks c) as [|[pos s] l IHl]; intros v; [reflexivity|].
  cbn [flat_map map fst snd] in *. inversion F1 as [|? ? (G1 & G2) G3]; subst. rewrite view_app. cbn [fst]. rewrite shown_chars_app, IHl by exact G3.
  change (s :: map snd l) with ([s] ++ map snd l). rewrite shapes_chars_app, map_app. f_equal.
  destruct (G1 pos (c_width (cf_box c)) v) as (_ & H). specialize (H G2). cbn zeta in H.
  unfold shapes_chars. cbn [flat_map]. rewrite app_nil_r. exact H.
Qed.
Lemma mixed_page base (p : page drawing * list colfill) ops : exact_eq NUM -> all_split -> Forall (good_drawing base) (pg_content (fst p)) ->
  Forall (fun s => shown_styles s /\ steady s) (page_shapes p) -> page_ops base (fst p, flat_map cf_ops (snd p)) = Ok ops ->
  right_codes (fst (view blank ops))
  /\ shown_text (fst (view blank ops)) = flat_map (drawing_text base) (pg_content (fst p))
       ++ map (fun c => legible (st_font (snd c)) (fst c)) (shapes_chars (page_shapes p)).
Proof.
  intros EE AS G F E. unfold page_ops in E. apply bind_ok in E as (l & M & E). apply Ok_inj in E. subst ops. cbn [fst snd] in M |- *.
  destruct (drawings_shown base _ l EE AS G M blank) as (cs & A & B).
  assert (SC : shown_chars (fst (view blank (concat l ++ flat_map cf_ops (snd p)))) = map want (cs ++ shapes_chars (page_shapes p))).
  { rewrite view_app. cbn [fst]. rewrite shown_chars_app, A, map_app. f_equal. apply cols_shown, F. }
  split.
  - eapply wanted_codes; [exact SC|]. apply (opens_app _ _ (mapM_concat_opens _ _ _ M) (cols_open (snd p))).
  - rewrite shown_chars_text, SC, map_map, map_app. rewrite <- B. reflexivity.
Qed.
End S.

Theorem C74_mixed_fonts_partial : forall (ENV : Env QcNum) compress inflate fuel ttf_of (ps : list (@para QcNum)) template sty file pages laid_out (h : Qc),
  all_split -> (forall b, inflate (compress b) = Some b) -> (forall f, embeddable (ttf_of f)) ->
  let base := full_or full_default sty in
  (0 <= h)%Qc -> room_for h template ->
  Forall (fun p => fits_lines h base p /\
    Forall (fun x => begins_text (fst x)) (span_strings base (ISpan (p_style p) (p_content p)))) ps ->
  Forall (fun p => p_optimal p <> None ->
    Forall (fun x => ~ lone_space (fst x)) (span_strings base (ISpan (p_style p) (p_content p)))) ps ->
  (forall n, Forall (good_drawing base) (pg_content (template n))) ->
  written compress fuel ttf_of [DAuto (map (@BPara QcNum) ps) template] sty file pages -> Forall (printable_page base) pages ->
  auto_pages fuel (map (@BPara QcNum) ps) template base 1 = Ok laid_out -> Forall (fun p => Forall steady (page_shapes p)) laid_out ->
  exists bodies rows,
    pdf_text inflate file = Some (zip_app
      (map (fun k => flat_map (drawing_text base) (pg_content (template (Z.of_nat (k + 1))))) (seq 0 (List.length pages))) bodies)
    /\ List.length bodies = List.length pages
    /\ Forall2 (fun p prow => Forall2 conserves prow (para_lines base p)) ps rows
    /\ concat bodies = map (fun c => legible (st_font (snd c)) (fst c)) (concat (concat (concat rows))).
Proof.
  intros ENV compress inflate fuel ttf_of ps template sty file pages ps' h AS INV EM base H RM FP LS GD W P A SD.
  assert (W' := W). destruct W' as (fid & parts & _ & _ & _ & _ & L). fold base in L.
  inversion L as [| |blocks template' items n ps2 pages' A2 L' E1 E2 E3]; subst. inversion L'; subst. rewrite app_nil_r in *.
  change (Z.of_nat (0 + 1)) with 1%Z in A2. rewrite A in A2. apply Ok_inj in A2. subst ps2.
  destruct (pages_roomy _ _ _ _ _ _ _ h AS H RM FP A) as (_ & pieces & PF & PS).
  destruct (C53_styles _ _ _ _ _ _ _ h AS H RM FP LS A) as (rows & R1 & R2).
  destruct (auto_pages_bases _ _ _ _ _ _ A) as (_ & M).
  assert (SH : Forall shown_styles (flat_map page_shapes ps')).
  { rewrite PS. clear -PF FP LS AS H. remember (map (@BPara QcNum) ps) as bl eqn:EB. revert ps EB FP LS.
    induction PF as [|b s bl pieces G PF IH]; intros [|p ps] EB FP LS; try discriminate; [constructor|].
    injection EB as -> ->. inversion FP as [|? ? ((L1 & L2) & BT) FP']; subst. inversion LS as [|? ? LS1 LS2]; subst.
    cbn [concat]. apply Forall_app; split; [|eapply IH; eauto]. destruct G as (cs & added & out & J & PC & _ & AD & ->).
    destruct (para_styles h fuel base p cs out AS BT LS1 L1 L2 J PC) as (added' & prow & _ & A' & _ & _ & X).
    pose proof (adds_unique _ _ _ _ AD A') as <-. eapply Forall_impl; [|exact X].
    intros s (ls & -> & NC & st & CO). eapply piece_shown; eauto. }
  assert (EACH : forall p, In p ps' -> Forall (good_drawing base) (pg_content (fst p))
     /\ Forall (fun s => shown_styles s /\ steady s) (page_shapes p)).
  { intros p I. split.
    - assert (J : In (fst p) (map fst ps')) by (apply in_map, I). rewrite M in J. apply in_map_iff in J as (k & <- & _). apply GD.
    - rewrite Forall_forall in SD, SH. specialize (SD p I). rewrite Forall_forall in SD. apply Forall_forall. intros s J.
      split; [|apply SD, J]. apply SH. apply in_flat_map. eauto. }
  destruct (C73_text_extracted_partial _ ENV compress inflate fuel ttf_of _ sty file (map (fun p => (fst p, flat_map cf_ops (snd p))) ps') INV EM W) as (texts & E & F).
  { fold base. apply Forall_map. rewrite Forall_map in P. rewrite Forall_forall in P |- *. intros p I. destruct (P p I) as (P1 & P2 & P3). split; [exact P1|]. split; [exact P2|].
    intros ops O. destruct (P3 ops O) as [Q1 Q2]. split; [exact Q1|]. split; [exact Q2|].
    destruct (EACH p I) as (G1 & G2). apply (mixed_page base p ops QcNum_exact AS G1 G2 O). }
  fold base in F.
  set (body := fun p : page (@drawing QcNum) * list colfill => map (fun c : schar => legible (st_font (snd c)) (fst c)) (shapes_chars (page_shapes p))).
  exists (map body ps'), rows. split; [|split; [rewrite !map_length; reflexivity|split; [exact R1|]]].
  - rewrite E. f_equal.
    assert (T : texts = zip_app (map (fun q => flat_map (drawing_text base) (pg_content q)) (map fst ps')) (map body ps')).
    { clear -F EACH AS. revert texts F. induction ps' as [|p l IH]; intros texts F; cbn [map] in F; inversion F as [|? t ? ts (ops & O & T) F']; subst; [reflexivity|].
      cbn [map zip_app]. f_equal; [|apply IH; [intros q I; apply EACH; right; exact I|exact F']].
      destruct (EACH p ltac:(left; reflexivity)) as (G1 & G2). apply (mixed_page base p ops QcNum_exact AS G1 G2 O). }
    rewrite T. f_equal. rewrite M, map_map, map_length. apply map_ext. intros k.
    replace (1 + Z.of_nat k)%Z with (Z.of_nat (k + 1)) by lia. reflexivity.
  - transitivity (map (fun c : schar => legible (st_font (snd c)) (fst c)) (shapes_chars (flat_map page_shapes ps'))).
    + clear. unfold body. induction ps' as [|p l IH]; [reflexivity|]. cbn [map concat flat_map]. rewrite IH, shapes_chars_app, map_app. reflexivity.
    + f_equal. unfold shapes_chars. rewrite flat_map_concat_map, R2. f_equal. clear. induction rows as [|r rows IH]; [reflexivity|].
      cbn [map concat]. rewrite concat_app, <- IH. reflexivity.
Qed.
Print Assumptions C74_mixed_fonts_partial.

#[local] Existing Instance ex_words.
(** a paragraph in three fonts, one of them embedded, with each of the algorithms *)
Definition three_fonts : list (@item QcNum) :=
  [IStr (str_of "one two a "); ISpan embed_style [IStr (str_of "em"); ISpan sty_bold [IStr (str_of "bed")]];
   IStr (str_of " and plain text "); ISpan sty_bold [IStr (str_of "some bold")]; IStr (str_of " text")].
Definition ex_three : list (@para QcNum) := [par three_fonts false; par three_fonts true].
Definition ex_three_items : list (@ditem QcNum) := [DAuto (map (@BPara QcNum) ex_three) ex_template].
Definition ex_three_file : bytes := concat (fst (write_iter same 100 ex_ttfs ex_three_items style_empty (bs "id"))).
Definition ex_three_laid := match auto_pages 100 (map (@BPara QcNum) ex_three) ex_template full_default 1 with Ok ps => ps | Err _ => [] end.
Definition steadyb (s : @shaped QcNum) : bool :=
  forallb (fun w => match w with
                    | WBox (BMixed _ _) | WCmd _ _ => false
                    | WBox _ => true
                    | WWord w => forallb (fun b => match b with BSlug _ => true | _ => false end) (w_boxes w)
                    end) (first_word (shape_lines s)).
Lemma steadyb_ok s : steadyb s = true -> steady s.
Proof.
  unfold steadyb, steady. intros H. apply Forall_forall. intros w I. rewrite forallb_forall in H. specialize (H w I).
  destruct w as [[|]|w|]; try discriminate; [exact Logic.I|]. cbn. apply Forall_forall. intros b J. rewrite forallb_forall in H. specialize (H b J).
  destruct b; [exact Logic.I|discriminate].
Qed.
Example C74_mixed_fonts_example :
  written same 100 ex_ttfs ex_three_items style_empty ex_three_file (map (fun p => (fst p, flat_map cf_ops (snd p))) ex_three_laid)
  /\ auto_pages 100 (map (@BPara QcNum) ex_three) ex_template full_default 1 = Ok ex_three_laid
  /\ Forall (printable_page full_default) (map (fun p => (fst p, flat_map cf_ops (snd p))) ex_three_laid)
  /\ Forall (fun p => Forall steady (page_shapes p)) ex_three_laid
  /\ (0 <= Q2Qc 32)%Qc /\ room_for (Q2Qc 32) ex_template
  /\ Forall (fun p => fits_lines (Q2Qc 32) full_default p /\ para_begins full_default p) ex_three
  /\ Forall (fun p => p_optimal p <> None ->
       Forall (fun x => ~ lone_space (fst x)) (span_strings full_default (ISpan (p_style p) (p_content p)))) ex_three
  /\ (forall n, Forall (good_drawing full_default) (pg_content (ex_template n)))
  /\ option_map (map show_str) (pdf_text Some ex_three_file)
     = Some ["one two aembed and"; "plain textsome boldtext"; "one two aembed and"; "plain textsome boldtext"]%string.
Proof.
  assert (K : auto_pages 100 (map (@BPara QcNum) ex_three) ex_template full_default 1 = Ok ex_three_laid).
  { assert (J : is_ok (auto_pages 100 (map (@BPara QcNum) ex_three) ex_template full_default 1) = true) by (vm_compute; reflexivity).
    revert J. unfold ex_three_laid. destruct (auto_pages _ _ _ _ _) as [ps|]; intros J; [reflexivity|discriminate J]. }
  split; [|split; [exact K|split; [|split]]].
  - apply ex_written; [vm_compute; reflexivity|]. rewrite <- (app_nil_r (map _ ex_three_laid)).
    apply laid_auto_item; [exact K|constructor].
  - apply (forallb_ok (printableb full_default)); [apply printableb_ok|vm_compute; reflexivity].
  - apply (forallb_ok (fun p => forallb steadyb (page_shapes p))); [|vm_compute; reflexivity].
    intros p H. apply (forallb_ok steadyb); [apply steadyb_ok|exact H].
  - destruct C53_example as (_ & _ & A & B & _). split; [exact A|]. split; [exact B|].
    split; [repeat constructor; vm_compute; congruence|].
    split; [repeat (constructor; [intros _; repeat (constructor; [apply no_lone_space; vm_compute; reflexivity|]); constructor|]); constructor|].
    split; [intros n; constructor|]. vm_compute. reflexivity.
Qed.
