(** * C97: how a text is put together from strings and spans does not matter where styles are the same.
    Specifications: [regrouped], [cut] and [clean] (Regroup). *)
From Coq Require Import QArith Qcanon String.
From Verif Require Import Base Gfmt Num Fonts State Style TextSpec StateProofs Words WordsSpec WordProofs WordOps Parse Render
  Firstfit KnuthPlass Optimum Common Show TextBlock Draw Layout LayoutSpec LayoutProofs LayoutText LayoutMoved Document Regroup Recut
  Properties_Words Properties_Text Properties_Layout Properties_Document.
From Coq Require Import Lia FunctionalExtensionality.
Local Open Scope string_scope.
Local Open Scope list_scope.
Open Scope nat_scope.

(** The same text, put together otherwise: the contents of a span that changes nothing in
    place of the span, or two strings in place of one, cut where a line can be broken
    (after a space, a hyphen, a dash or a zero width space; not within spaces), with no
    kerning between the characters on both sides; or cut after a line break; or one of
    these the other way round. *)
Inductive same_text (ENV : Env QcNum) (base : @full QcNum) (c c' : list (@item QcNum)) : Prop :=
| st_refl : c = c' -> same_text ENV base c c'
| st_group : regrouped base c c' -> same_text ENV base c c'
| st_ungroup : regrouped base c' c -> same_text ENV base c c'
| st_cut a b : begins_text b -> clean b a -> cut a b c c' -> same_text ENV base c c'
| st_join a b : begins_text b -> clean b a -> cut a b c' c -> same_text ENV base c c'
| st_line u b : b <> [] -> cut (u ++ [10%N]) b c c' -> same_text ENV base c c'
| st_unline u b : b <> [] -> cut (u ++ [10%N]) b c' c -> same_text ENV base c c'.
(** paragraphs, drawings, pages and documents that differ in that only *)
Definition with_content (p : @para QcNum) (c : list (@item QcNum)) : @para QcNum :=
  mkPara c (p_style p) (p_align p) (p_indent p) (p_orphans p) (p_optimal p).
Inductive same_block (ENV : Env QcNum) (base : @full QcNum) : @block QcNum -> @block QcNum -> Prop :=
| sb_refl b : same_block ENV base b b
| sb_para p c : same_text ENV (full_or base (p_style p)) (p_content p) c -> same_block ENV base (BPara p) (BPara (with_content p c)).
Inductive same_drawing (ENV : Env QcNum) (base : @full QcNum) : @drawing QcNum -> @drawing QcNum -> Prop :=
| sd_refl d : same_drawing ENV base d d
| sd_text loc c c' st a : same_text ENV (full_or base st) c c' -> same_drawing ENV base (DText loc c st a) (DText loc c' st a).
Inductive same_page (ENV : Env QcNum) (base : @full QcNum) : page (@drawing QcNum) -> page (@drawing QcNum) -> Prop :=
| sp_page ds ds' size rot cols : Forall2 (same_drawing ENV base) ds ds' -> same_page ENV base (mkPage ds size rot cols) (mkPage ds' size rot cols).
Inductive same_item (ENV : Env QcNum) (base : @full QcNum) : @ditem QcNum -> @ditem QcNum -> Prop :=
| si_page p p' : same_page ENV base p p' -> same_item ENV base (DPage p) (DPage p')
| si_auto bs bs' t t' : Forall2 (same_block ENV base) bs bs' -> (forall n, same_page ENV base (t n) (t' n)) -> same_item ENV base (DAuto bs t) (DAuto bs' t').

Section Same.
Context {ENV : Env QcNum}.
Variable SPLIT : all_split.
Lemma lines_regroup (ps ps' : list (@passage QcNum)) : ps = ps' -> Forall2 gsame (splitlines ps) (splitlines ps') /\ forall st, max_lead ps st = max_lead ps' st.
Proof. intros ->. split; [apply same_refl|reflexivity]. Qed.
Lemma gsame_text base st c c' : same_text ENV (full_or base st) c c' ->
  ((Forall2 gsame (splitlines (flatten base st c)) (splitlines (flatten base st c')) \/ Forall2 gsame (splitlines (flatten base st c')) (splitlines (flatten base st c)))
   /\ (forall s, max_lead (flatten base st c) s = max_lead (flatten base st c') s)) /\ flatten_fonts base st c = flatten_fonts base st c'.
Proof.
  intros [->|R|R|a b BT CL CU|a b BT CL CU|u b NB CU|u b NB CU].
  - split; [split; [left; apply same_refl|reflexivity]|reflexivity].
  - destruct (regroup_flatten base st c c' R) as (-> & ->). split; [split; [left; apply same_refl|reflexivity]|reflexivity].
  - destruct (regroup_flatten base st c' c R) as (-> & ->). split; [split; [left; apply same_refl|reflexivity]|reflexivity].
  - destruct (flatten_cut b a base st c c' CL CU) as (P & ->). split; [|reflexivity]. split; [left; exact (splitlines_cut b BT _ _ P)|].
    intros s. exact (lead_cut b BT _ _ s P).
  - destruct (flatten_cut b a base st c' c CL CU) as (P & ->). split; [|reflexivity]. split; [right; exact (splitlines_cut b BT _ _ P)|].
    intros s. symmetry. exact (lead_cut b BT _ _ s P).
  - destruct (flatten_ncut _ b base st c c' (ex_intro _ u eq_refl) CU) as (P & ->). split; [|reflexivity]. split; [left; exact (splitlines_ncut b _ _ P)|].
    intros s. exact (lead_ncut b _ _ s NB P).
  - destruct (flatten_ncut _ b base st c' c (ex_intro _ u eq_refl) CU) as (P & ->). split; [|reflexivity]. split; [right; exact (splitlines_ncut b _ _ P)|].
    intros s. symmetry. exact (lead_ncut b _ _ s NB P).
Qed.
Lemma para_with fuel p c lead : forall gs cs st, para_loop fuel (with_content p c) gs cs st lead = para_loop fuel p gs cs st lead.
Proof.
  induction gs as [|g gs IH]; intros cs st; cbn [para_loop]; [reflexivity|].
  change (fill_paragraph fuel (with_content p c) g cs st lead) with (fill_paragraph fuel p g cs st lead).
  destruct (fill_paragraph fuel p g cs st lead) as [[[o s] ex]|e]; cbn [bind]; [|reflexivity]. destruct (rev o); [reflexivity|]. destruct ex; [|reflexivity]. rewrite IH. reflexivity.
Qed.
Lemma block_same fuel base b b' cs : same_block ENV base b b' -> block_columns fuel b base cs = block_columns fuel b' base cs /\ block_fonts b base = block_fonts b' base.
Proof.
  intros [?|p c S]; [split; reflexivity|]. cbn [block_columns block_fonts]. unfold para_columns, para_fonts. cbn [with_content p_style p_content].
  set (sty := full_or base (p_style p)) in *.
  assert (S' : same_text ENV (full_or sty (p_style p)) (p_content p) c).
  { unfold sty in *. replace (full_or (full_or base (p_style p)) (p_style p)) with (full_or base (p_style p)); [exact S|].
    unfold full_or. destruct (p_style p) as [[|] [|] [|] [|] [|] [|] [|]]; reflexivity. }
  destruct (gsame_text sty (p_style p) _ _ S') as (([G|G] & L) & ->); (split; [|reflexivity]); rewrite L.
  - rewrite para_with. apply (para_cut SPLIT). exact G.
  - rewrite para_with. symmetry. apply (para_cut SPLIT). exact G.
Qed.
Lemma drawing_same base d d' : same_drawing ENV base d d' -> draw_ops d base = draw_ops d' base /\ draw_fonts d base = draw_fonts d' base.
Proof.
  intros [?|loc c c' st a S]; [split; reflexivity|]. cbn [draw_ops draw_fonts]. unfold text_ops.
  destruct (gsame_text base st _ _ S) as (([G|G] & L) & ->); (split; [|reflexivity]); rewrite L; [rewrite (text_cut SPLIT _ _ (as_state base) G)|rewrite <- (text_cut SPLIT _ _ (as_state base) G)]; reflexivity.
Qed.
Lemma drawings_refl base ds : Forall2 (same_drawing ENV base) ds ds.
Proof. induction ds; constructor; [constructor|assumption]. Qed.
(** pages being filled: only what is drawn on them by hand differs *)
Definition pf_same base (p p' : @pagefill QcNum) : Prop := pf_todo p = pf_todo p' /\ pf_done p = pf_done p' /\ same_page ENV base (pf_base p) (pf_base p').
Definition docs_same base (d d' : nat -> @pagefill QcNum) : Prop := forall i, pf_same base (d i) (d' i).
Lemma new_same base p p' : same_page ENV base p p' -> pf_same base (pf_new p) (pf_new p').
Proof. intros D. unfold pf_same, pf_new. cbn [pf_todo pf_done pf_base]. split; [destruct D; reflexivity|]. split; [reflexivity|exact D]. Qed.
Lemma todo_same base d d' : docs_same base d d' -> flat_todo d = flat_todo d'.
Proof.
  intros D. apply functional_extensionality. intros i. unfold flat_todo. f_equal. f_equal. apply map_ext. intros k. destruct (D k) as (E & _). exact E.
Qed.
Lemma tail_same base d d' : docs_same base d d' -> docs_same base (sdrop 1 d) (sdrop 1 d').
Proof. intros D i. exact (D (1 + i)). Qed.
Lemma fill_loop_same base : forall f filled d d', docs_same base d d' ->
  match fill_loop f filled d, fill_loop f filled d' with
  | Ok (a, x), Ok (a', x') => Forall2 (pf_same base) a a' /\ docs_same base x x'
  | Err e, Err e' => e = e' | _, _ => False end.
Proof.
  induction f as [|f IH]; intros filled d d' D; cbn [fill_loop]; [reflexivity|]. destruct (D 0) as (T & N & B). rewrite T, N.
  destruct (skipn _ filled) as [|c r].
  - unfold pf_reopen. cbn [pf_done pf_base pf_todo]. destruct (rev _) as [|c l]; cbn [bind]; [reflexivity|]. split; [constructor|]. intros [|i]; [|exact (tail_same _ _ _ D i)].
    cbn [scons]. repeat split; auto.
  - specialize (IH (c :: r) (sdrop 1 d) (sdrop 1 d') (tail_same _ _ _ D)).
    destruct (fill_loop f (c :: r) (sdrop 1 d)) as [[a x]|e], (fill_loop f (c :: r) (sdrop 1 d')) as [[a' x']|e']; cbn [bind fst snd]; try contradiction; [|exact IH].
    destruct IH as (A & X). split; [|exact X]. constructor; [|exact A]. repeat split; auto.
Qed.
Lemma fill_same base cols d d' : docs_same base d d' ->
  match fill_into cols d, fill_into cols d' with
  | Ok (a, x), Ok (a', x') => Forall2 (pf_same base) a a' /\ docs_same base x x'
  | Err e, Err e' => e = e' | _, _ => False end.
Proof. intros D. unfold fill_into. destruct cols as [|c cs]; [split; [constructor|exact D]|]. apply fill_loop_same. exact D. Qed.
Definition part_same base (y y' : list font * @pagefill QcNum) : Prop := fst y = fst y' /\ pf_same base (snd y) (snd y').
Lemma auto_same fuel base bs bs' : Forall2 (same_block ENV base) bs bs' -> forall pd d d', docs_same base d d' ->
  Forall2 (part_same base) (fst (auto_gen fuel bs base pd d)) (fst (auto_gen fuel bs' base pd d'))
  /\ match snd (auto_gen fuel bs base pd d), snd (auto_gen fuel bs' base pd d') with
     | Ok (fs, x), Ok (fs', x') => fs = fs' /\ docs_same base x x' | Err e, Err e' => e = e' | _, _ => False end.
Proof.
  induction 1 as [|b b' bs bs' B _ IH]; intros pd d d' D; cbn [auto_gen]; [split; [constructor|split; [reflexivity|exact D]]|].
  rewrite <- (todo_same base d d' D). destruct (block_same fuel base b b' (flat_todo d) B) as (-> & ->).
  destruct (block_columns fuel b' base (flat_todo d)) as [cols|e]; cbn [bind]; [|split; [constructor|reflexivity]].
  assert (F := fill_same base cols d d' D). destruct (fill_into cols d) as [[a x]|e], (fill_into cols d') as [[a' x']|e']; try contradiction; [|subst e'; split; [constructor|reflexivity]].
  destruct F as (A & X). destruct A as [|p p' ps ps' P PS]; [apply IH; exact X|]. destruct (IH [] x x' X) as (U & V). cbn [fst snd]. split; [|exact V].
  constructor; [split; [reflexivity|exact P]|]. apply Forall2_app; [|exact U]. clear -PS. induction PS; cbn [map]; constructor; [split; [reflexivity|assumption]|assumption].
Qed.
Definition rp_same base (y y' : @yielded QcNum) : Prop :=
  fst y = fst y' /\ rp_rotate (snd y) = rp_rotate (snd y') /\ rp_size (snd y) = rp_size (snd y') /\ rp_extra (snd y) = rp_extra (snd y')
  /\ Forall2 (same_drawing ENV base) (rp_content (snd y)) (rp_content (snd y')).
Lemma page_same base fs p p' ops : same_page ENV base p p' -> rp_same base (fs, rpage_of p ops) (fs, rpage_of p' ops).
Proof. intros [ds ds' size rot cols D]. repeat split. exact D. Qed.
Lemma item_same fuel base i i' n : same_item ENV base i i' ->
  Forall2 (rp_same base) (fst (item_gen fuel base i n)) (fst (item_gen fuel base i' n)) /\ snd (item_gen fuel base i n) = snd (item_gen fuel base i' n).
Proof.
  intros [p p' P|bs bs' t t' B T]; cbn [item_gen].
  - split; [|reflexivity]. constructor; [|constructor]. apply page_same. exact P.
  - assert (D : docs_same base (fun i => pf_new (t (n + Z.of_nat i)%Z)) (fun i => pf_new (t' (n + Z.of_nat i)%Z))) by (intros j; apply new_same, T).
    destruct (auto_same fuel base bs bs' B [] _ _ D) as (PS & R).
    destruct (auto_gen fuel bs base [] (fun i => pf_new (t (n + Z.of_nat i)%Z))) as [ys r]. destruct (auto_gen fuel bs' base [] (fun i => pf_new (t' (n + Z.of_nat i)%Z))) as [ys' r'].
    cbn [fst snd] in *.
    assert (M : Forall2 (rp_same base) (map (fun y => (fst y, rpage_of (pf_base (snd y)) (flat_map cf_ops (pf_done (snd y))))) ys)
      (map (fun y => (fst y, rpage_of (pf_base (snd y)) (flat_map cf_ops (pf_done (snd y))))) ys')).
    { clear -PS. induction PS as [|[f y] [f' y'] l l' (A & _ & DD & PP) _ IH]; cbn [map]; constructor; [|exact IH]. cbn [fst snd] in *. subst f'. rewrite DD. apply page_same. exact PP. }
    destruct r as [[fs x]|e], r' as [[fs' x']|e']; try contradiction; cbn [fst snd].
    + destruct R as (<- & X). destruct (X 0) as (TT & DD & PP). split; [|reflexivity]. apply Forall2_app; [exact M|]. constructor; [|constructor]. rewrite TT, DD. apply page_same. exact PP.
    + subst e'. split; [exact M|reflexivity].
Qed.
Lemma gen_same fuel base items items' : Forall2 (same_item ENV base) items items' -> forall n,
  Forall2 (rp_same base) (fst (pages_gen fuel base items n)) (fst (pages_gen fuel base items' n)) /\ snd (pages_gen fuel base items n) = snd (pages_gen fuel base items' n).
Proof.
  induction 1 as [|i i' items items' I _ IH]; intros n; cbn [pages_gen]; [split; [constructor|reflexivity]|].
  destruct (item_same fuel base i i' (n + 1)%Z I) as (A & B). rewrite <- B. destruct (snd (item_gen fuel base i _)) eqn:E; [split; [exact A|rewrite <- B; exact E]|].
  rewrite (F2_same _ _ _ A). cbn [fst snd]. match goal with |- context [pages_gen fuel base items ?k] => destruct (IH k) as (C & D) end.
  split; [apply Forall2_app; assumption|exact D].
Qed.
Lemma bytes_same base ds ds' : Forall2 (same_drawing ENV base) ds ds' -> forall r cs, drawings_bytes r base ds cs = drawings_bytes r base ds' cs.
Proof.
  induction 1 as [|d d' ds ds' D _ IH]; intros r cs; cbn [drawings_bytes]; [reflexivity|]. destruct (drawing_same base d d' D) as (-> & ->).
  destruct (draw_ops d' base) as [ops|e]; cbn [bind]; [|reflexivity]. destruct (ops_bytes _ ops cs) as [x|e]; cbn [bind]; [|reflexivity]. rewrite IH. reflexivity.
Qed.
Lemma objects_same base ps ps' : Forall2 (rp_same base) ps ps' -> forall i r cs, page_objects base ps i r cs = page_objects base ps' i r cs.
Proof.
  induction 1 as [|[f y] [f' y'] ps ps' (A & B & C & D & E) _ IH]; intros i r cs; cbn [page_objects]; [reflexivity|]. cbn [fst snd] in *. subst f'.
  assert (PD : forall j, page_dict y j = page_dict y' j) by (intros j; unfold page_dict; rewrite B, C; reflexivity).
  assert (PB : forall r cs, page_bytes r base y cs = page_bytes r base y' cs) by (intros r0 cs0; unfold page_bytes; rewrite (bytes_same base _ _ E), D; reflexivity).
  rewrite PB, PD. destruct (page_bytes _ base y' cs) as [[[b r1] cs1]|e]; [|reflexivity]. rewrite IH. reflexivity.
Qed.
End Same.

(** The documents are written as the same bytes (or writing them fails in the same way after
    the same bytes). *)
Theorem C97_same_file_partial : forall (ENV : Env QcNum) compress fuel ttf_of items items' sty fid, all_split ->
  Forall2 (same_item ENV (full_or full_default sty)) items items' ->
  write_iter compress fuel ttf_of items sty fid = write_iter compress fuel ttf_of items' sty fid.
Proof.
  intros ENV compress fuel ttf_of items items' sty fid SPLIT S. unfold write_iter. cbv zeta.
  replace (doc_objects fuel ttf_of items (full_or full_default sty)) with (doc_objects fuel ttf_of items' (full_or full_default sty)); [reflexivity|].
  unfold doc_objects. destruct (gen_same SPLIT fuel _ _ _ S 0%Z) as (A & B). rewrite (objects_same SPLIT _ _ _ A), B, (F2_same _ _ _ A). reflexivity.
Qed.
Print Assumptions C97_same_file_partial.

#[local] Existing Instance ex_words.
Definition ex_hy : @style QcNum := @mkStyle QcNum None None None None None None (Some 1%N).
Definition ex_strings (l : list string) : @para QcNum := mkPara (map (fun s => IStr (str_of s)) l) ex_hy ALeft 0%Qc false None.
(** the numbers of characters on the lines of each block *)
Definition ex_lines (l : list string) : list (list nat) :=
  map (fun s => map (fun ln => List.length (line_text ln)) (shape_lines s)) (para_shapes (ex_strings l)).
Lemma ex_clean u c b : (is_space c || break_char c)%bool = true -> (is_space c && is_space (hd 0%N b))%bool = false -> (c =? 65)%N = false -> @clean ex_words b (u ++ [c]).
Proof.
  intros A B C. exists u, c. split; [reflexivity|]. split; [exact A|]. split; [exact B|]. intros f. unfold charkern. cbn [kerntab ex_words].
  destruct (is_builtin f); [|reflexivity]. rewrite C. reflexivity.
Qed.
(** Cut within a word: the word is no longer hyphenated as before. *)
Theorem C97_inside_word_refuted : exists (ENV : Env QcNum) a b p c fuel cs, all_split /\ a <> [] /\ begins_text b /\ p_optimal p = None /\ cut a b (p_content p) c
  /\ is_ok (para_columns fuel p full_default cs) = true /\ is_ok (para_columns fuel (with_content p c) full_default cs) = true
  /\ map (fun s => map (fun ln => List.length (line_text ln)) (shape_lines s)) (flat_map col_shapes (ok_or [] (para_columns fuel p full_default cs)))
     <> map (fun s => map (fun ln => List.length (line_text ln)) (shape_lines s)) (flat_map col_shapes (ok_or [] (para_columns fuel (with_content p c) full_default cs))).
Proof.
  exists ex_words, (str_of "Hello Big"), (str_of "WorldAgain it is late"), (ex_strings ["Hello BigWorldAgain it is late"]), (p_content (ex_strings ["Hello Big"; "WorldAgain it is late"])), 100, (flat_todo ex_doc).
  split; [apply ex_splits|]. split; [discriminate|]. split; [exact Logic.I|]. split; [reflexivity|]. split; [exact (cut_here _ _ [] [])|].
  split; [vm_compute; reflexivity|]. split; [vm_compute; reflexivity|].
  assert (A : ex_lines ["Hello BigWorldAgain it is late"] = [[10; 10]; [10]]) by (vm_compute; reflexivity).
  assert (B : ex_lines ["Hello Big"; "WorldAgain it is late"] = [[5; 14]; [10]]) by (vm_compute; reflexivity).
  intros X. change (ex_lines ["Hello BigWorldAgain it is late"] = ex_lines ["Hello Big"; "WorldAgain it is late"]) in X. rewrite A, B in X. discriminate.
Qed.
Print Assumptions C97_inside_word_refuted.
(** An empty string between two others: the text after it is lost. *)
Theorem C97_empty_refuted : exists (ENV : Env QcNum) a d p fuel cs, all_split /\ @clean ENV d a /\ begins_text d /\ p_optimal p = None
  /\ p_content p = [IStr a; IStr []; IStr d] /\ is_ok (para_columns fuel p full_default cs) = true
  /\ map (fun s => map line_text (shape_lines s)) (flat_map col_shapes (ok_or [] (para_columns fuel p full_default cs))) = [[a]].
Proof.
  exists ex_words, (str_of "Hello "), (str_of "Big"), (ex_strings ["Hello "; ""; "Big"]), 100, (flat_todo ex_doc).
  split; [apply ex_splits|]. split; [exact (ex_clean (str_of "Hello") 32%N (str_of "Big") eq_refl eq_refl eq_refl)|]. split; [exact Logic.I|]. split; [reflexivity|].
  split; [reflexivity|]. split; vm_compute; reflexivity.
Qed.
Print Assumptions C97_empty_refuted.
(** A document, and the same with a paragraph in two strings (with a line break in the first), and without a span in a text. *)
(** A page with a text drawn on it, whose contents are [c] *)
Definition ex_titled (c : list (@item QcNum)) : page (@drawing QcNum) := mkPage [DText ex_loc c style_empty ALeft] (@A4 QcNum) 0 (pg_columns (@default_page QcNum)).
Definition ex_lf : string := String (Ascii.ascii_of_nat 10) "".
Definition ex_whole : list (@ditem QcNum) :=
  [DPage (ex_titled [IStr (str_of "Text "); ISpan ex_hy [IStr (str_of "of "); ISpan ex_hy [IStr (str_of "a page")]]]);
   DAuto [BPara (ex_strings ["AV one" ++ ex_lf ++ "two three-four"]%string); BPara (ex_strings ["Big" ++ ex_lf ++ ex_lf ++ "World"]%string)] (fun _ => ex_titled [IStr (str_of "A title")])].
Definition ex_parts : list (@ditem QcNum) :=
  [DPage (ex_titled [IStr (str_of "Text "); ISpan ex_hy [IStr (str_of "of "); IStr (str_of "a page")]]);
   DAuto [BPara (ex_strings ["AV one" ++ ex_lf ++ "two three-"; "four"]%string); BPara (ex_strings ["Big" ++ ex_lf; ex_lf ++ "World"]%string)] (fun _ => ex_titled [IStr (str_of "A "); IStr (str_of "title")])].
Example C97_example : @all_split QcNum ex_words /\ Forall2 (same_item ex_words (full_or full_default style_empty)) ex_whole ex_parts /\ ex_whole <> ex_parts
  /\ is_finished (snd (write_iter (fun b => b) 100 ex_ttfs ex_whole style_empty [1; 2]%N)) = true.
Proof.
  split; [apply ex_splits|]. split; [|split; [discriminate|vm_compute; reflexivity]].
  constructor; [|constructor; [|constructor]].
  - constructor. constructor. constructor; [|constructor]. apply sd_text, st_group.
    apply (rg_inside _ [IStr (str_of "Text ")] ex_hy [IStr (str_of "of "); ISpan ex_hy [IStr (str_of "a page")]] [IStr (str_of "of "); IStr (str_of "a page")] []).
    apply (rg_here _ [IStr (str_of "of ")] ex_hy [IStr (str_of "a page")] []). reflexivity.
  - apply si_auto.
    + constructor; [|constructor; [|constructor]].
      * refine (sb_para _ _ (ex_strings ["AV one" ++ ex_lf ++ "two three-four"]%string) (p_content (ex_strings ["AV one" ++ ex_lf ++ "two three-"; "four"]%string)) _).
        apply (st_cut _ _ _ _ (str_of ("AV one" ++ ex_lf ++ "two three-")%string) (str_of "four")); [exact Logic.I| |exact (cut_here _ _ [] [])].
        exact (ex_clean (str_of ("AV one" ++ ex_lf ++ "two three")%string) 45%N (str_of "four") eq_refl eq_refl eq_refl).
      * refine (sb_para _ _ (ex_strings ["Big" ++ ex_lf ++ ex_lf ++ "World"]%string) (p_content (ex_strings ["Big" ++ ex_lf; ex_lf ++ "World"]%string)) _).
        apply (st_line _ _ _ _ (str_of "Big") (str_of (ex_lf ++ "World")%string)); [discriminate|exact (cut_here _ _ [] [])].
    + intros n. constructor. constructor; [|constructor]. apply sd_text.
      apply (st_cut _ _ _ _ (str_of "A ") (str_of "title")); [exact Logic.I| |exact (cut_here _ _ [] [])].
      exact (ex_clean (str_of "A") 32%N (str_of "title") eq_refl eq_refl eq_refl).
Qed.
