(** * ReaderFonts: blocks in one font, as extracted. *)
From Coq Require Import QArith String.
From Verif Require Import Base Gfmt GfmtProofs Atoms PdfSpec AtomsProofs FileProofs NameProofs FontSpec FontProofs ContentSpec ContentProofs ReaderSpec.
From Verif Require Import Num Fonts State Style TextSpec StateProofs Words WordsSpec Parse Render RenderSpec RenderProofs Firstfit KnuthPlass
  Optimum Common Show Draw DrawSpec TextBlock Layout LayoutSpec LayoutProofs LayoutPages ContentOps FontsUsed ReaderText ContentText Document DocumentSpec DocumentProofs ReaderDoc ReaderStd ReaderParas ReaderDraw Properties_Text Properties_Layout.
Local Open Scope list_scope.
Open Scope nat_scope.

(** only standard fonts, or only one font *)
Definition coherent (l : list font) : Prop :=
  forall f g, In f l -> In g l -> f = g \/ is_builtin f = true /\ is_builtin g = true.

Section S.
Context {NUM : Num} {ENV : Env NUM}.
(** ** Operators which are decoded rightly, whatever font was set before *)
Definition self_coded (ops : list op) : Prop := forall v, right_codes (fst (view v ops)).
Lemma self_nil : self_coded []. Proof. intros v. constructor. Qed.
Lemma self_app a b : self_coded a -> self_coded b -> self_coded (a ++ b).
Proof. intros A B v. rewrite view_app. cbn [fst]. unfold right_codes. apply Forall_app. split; [apply A|apply B]. Qed.
Lemma self_flat {A} (f : A -> list op) l : Forall (fun x => self_coded (f x)) l -> self_coded (flat_map f l).
Proof. induction 1; cbn [flat_map]; [apply self_nil|apply self_app; assumption]. Qed.
(** the font before matters only where no font is set *)
Lemma view_font ops : forall v v', (v_font v' = v_font v \/ v_font v' = None) ->
  Forall2 (fun s s' => sh_items s = sh_items s' /\ (v_font (sh_v s') = v_font (sh_v s) \/ v_font (sh_v s') = None)) (fst (view v ops)) (fst (view v' ops)).
Proof.
  induction ops as [|o ops IH]; intros v v' H; [constructor|]. cbn [view].
  assert (H' : v_font (vstep v' o) = v_font (vstep v o) \/ v_font (vstep v' o) = None).
  { destruct o; cbn [vstep vmove vlead v_font]; auto. }
  specialize (IH _ _ H'). destruct (view (vstep v o) ops) as [out w]. destruct (view (vstep v' o) ops) as [out' w']. cbn [fst] in *.
  destruct o; try exact IH. constructor; [|exact IH]. cbn [sh_items sh_v]. auto.
Qed.
Lemma coherent_self (F : font -> Prop) ops : (forall f g, F f -> F g -> f = g \/ is_builtin f = true /\ is_builtin g = true) ->
  ops_in (fun f _ => F f) ops -> opens ops -> self_coded ops.
Proof.
  intros CO O P v. set (v' := mkV None (v_size v) (v_color v) (v_lead v) (v_x v) (v_y v)).
  pose proof (shown_fonts F ops O v' ltac:(discriminate)) as SF. specialize (P v'). pose proof (view_font ops v v' (or_intror eq_refl)) as VF.
  unfold right_codes. clear O. revert SF P. induction VF as [|s s' l l' (E1 & E2) _ IH]; intros SF P; [constructor|].
  inversion SF as [|? ? (S1 & S2) S3]; subst. inversion P as [|? ? P1 P2]; subst. constructor; [|apply IH; assumption].
  rewrite E1. destruct P1 as [->|(f & Ef)]; [constructor|]. destruct E2 as [E2|E2]; [|congruence]. rewrite E2 in Ef.
  eapply Forall_impl; [|exact S2]. intros i I. exists f. split; [exact Ef|]. right. apply CO; [apply S1; congruence|].
  destruct i as [s0|t st]; cbn in I |- *; [apply I|exact I].
Qed.
(** ** Shapes, columns *)
Definition coded_shape (s : shaped) : Prop := exists l, coherent l /\ shape_in (fun f _ => In f l) s.
Lemma coded_ops s pos width : coded_shape s -> self_coded (sh_ops s pos width).
Proof. intros (l & C & I). eapply (coherent_self (fun f => In f l)); [exact C|apply sh_ops_in, I|apply shape_opens]. Qed.
Definition coded_col (c : colfill) : Prop := Forall coded_shape (col_shapes c).
Lemma coded_cols cs : Forall coded_col cs -> self_coded (flat_map cf_ops cs).
Proof.
  intros H. apply self_flat. eapply Forall_impl; [|exact H]. intros c C. unfold cf_ops. apply self_flat. unfold coded_col, col_shapes in C.
  rewrite Forall_map in C. eapply Forall_impl; [|exact C]. intros [pos s] S. apply coded_ops, S.
Qed.
(** ** What a paragraph adds *)
Lemma run_in (F : font -> num -> Prop) fuel p lead gs cs st cks : para_run fuel p lead gs cs st cks -> Forall (psg_in F) gs -> st_in F st ->
  Forall (Forall (Forall (tline_in F))) cks.
Proof.
  induction 1 as [cs st|g r cs st cmd ws ws' ex chunks rest W I S NE X0 _ IH]; intros G S0; [constructor|].
  inversion G as [|? ? G1 G2]; subst. pose proof (into_words_in F _ _ _ G1 S0 W) as [CM WI].
  pose proof (indent_first_in F _ _ _ WI I) as WI'. pose proof (shape_chunks_in F _ _ _ _ _ _ _ WI' S) as CH.
  constructor; [exact CH|]. destruct ex; [|rewrite X0; [constructor|reflexivity]].
  apply IH; [reflexivity|exact G2|]. apply states_after_in; [apply apply_in; assumption|exact CH].
Qed.
Lemma para_shapes_in (F : font -> Prop) fuel p base cs out : (forall f, In f (para_fonts p base) -> F f) -> para_columns fuel p base cs = Ok out ->
  exists added, added <> [] /\ adds cs added out /\ Forall (shape_in (fun f _ => F f)) (concat added).
Proof.
  unfold para_columns, para_fonts. intros H E. apply para_loop_run in E as (added & cks & NE & A & R & CO). exists added. split; [exact NE|]. split; [exact A|].
  rewrite CO. apply Forall_map. apply (run_in (fun f _ => F f)) in R.
  - clear -R. induction R as [|ck cks H _ IH]; cbn [concat]; [constructor|]. apply Forall_app. split; [|exact IH]. exact H.
  - apply splitlines_in, flatten_in. intros f I. apply H. right. exact I.
  - apply H. left. reflexivity.
Qed.
Lemma adds_coded cs added out : adds cs added out -> (forall i, coded_col (cs i)) -> Forall coded_shape (concat added) -> Forall coded_col out.
Proof.
  intros -> C A. apply Forall_map, Forall_forall. intros i _. unfold coded_col. rewrite (proj1 (proj2 (fold_add (cs i) (nth i added [])))).
  apply Forall_app. split; [apply C|]. clear C. revert i. induction added as [|a added IH]; intros [|i]; cbn [nth concat] in *; try constructor; apply Forall_app in A as [A1 A2]; auto.
Qed.
Lemma block_coded fuel b base cs out : coherent (block_fonts b base) -> (forall i, coded_col (cs i)) ->
  block_columns fuel b base cs = Ok out -> Forall coded_col out.
Proof.
  destruct b as [p|c m]; cbn [block_columns block_fonts]; intros CO C E.
  - destruct (para_shapes_in (fun f => In f (para_fonts p base)) fuel p base cs out (fun f I => I) E) as (added & _ & A & S).
    eapply adds_coded; [exact A|exact C|]. eapply Forall_impl; [|exact S]. intros s I. exists (para_fonts p base). auto.
  - apply Ok_inj in E. subst. unfold rule_columns. apply Forall_app. split.
    + destruct (nltb _ _); [constructor; [apply C|constructor]|constructor].
    + constructor; [|constructor]. unfold coded_col, col_shapes, cf_add. cbn [cf_blocks]. rewrite map_app. apply Forall_app.
      split; [apply C|]. constructor; [|constructor]. exists []. split; [intros ? ? []|exact I].
Qed.

(** ** Documents whose blocks and drawings are each in one font, or in standard fonts *)
Definition readable_drawing (base : full) (d : drawing) : Prop :=
  coherent (draw_fonts d base) \/ (exact_eq NUM /\ all_split /\ good_drawing base d).
Definition readable_item (base : full) (i : ditem) : Prop :=
  match i with
  | DPage p => Forall (readable_drawing base) (pg_content p)
  | DAuto blocks template => Forall (fun b => coherent (block_fonts b base)) blocks
      /\ forall n, Forall (readable_drawing base) (pg_content (template n))
  end.
Lemma drawing_coded base d ops : readable_drawing base d -> draw_ops d base = Ok ops -> self_coded ops.
Proof.
  intros [C|(EE & AS & G)] E.
  - eapply (coherent_self (fun f => In f (draw_fonts d base))); [exact C| |eapply draw_opens, E]. eapply draw_ops_in; [|exact E]. auto.
  - intros v. destruct (drawing_shown d base ops v EE AS G E) as (cs & A & _). eapply wanted_codes; [exact A|]. apply (draw_opens _ _ _ E).
Qed.
Lemma drawings_coded base ds l : Forall (readable_drawing base) ds -> mapM (fun d => draw_ops d base) ds = Ok l -> self_coded (concat l).
Proof.
  intros G. revert l. induction G as [|d ds G _ IH]; intros l E; cbn [mapM] in E.
  - apply Ok_inj in E. subst. apply self_nil.
  - apply bind_ok in E as (x & X & E). apply bind_ok in E as (y & Y & E). apply Ok_inj in E. subst. cbn [concat].
    apply self_app; [eapply drawing_coded; eassumption|apply IH, Y].
Qed.
Lemma laid_readable fuel base items n pages : laid fuel base items n pages -> Forall (readable_item base) items ->
  Forall (fun p : laid_page => Forall (readable_drawing base) (pg_content (fst p)) /\ self_coded (snd p)) pages.
Proof.
  induction 1 as [n|p items n pages L IH|blocks template items n ps pages A L IH]; intros S; [constructor| |]; inversion S as [|? ? S1 S2]; subst.
  - constructor; [|apply IH, S2]. cbn [fst snd]. split; [exact S1|apply self_nil].
  - apply Forall_app. split; [|apply IH, S2]. destruct S1 as [B T]. apply Forall_map.
    assert (K : Forall (fun p => Forall coded_col (snd p)) ps).
    { eapply auto_pages_all; [| | |exact A].
      - constructor.
      - eapply Forall_impl; [|exact B]. intros b SB cs out C E. eapply block_coded; [exact SB|exact C|exact E].
      - intros; constructor. }
    destruct (auto_pages_bases _ _ _ _ _ _ A) as (_ & M).
    assert (TB : Forall (fun p => exists k, fst p = template k) ps).
    { apply Forall_forall. intros p I. apply (in_map fst) in I. rewrite M in I. apply in_map_iff in I as (k & <- & _). eauto. }
    clear -K TB T. induction K as [|p ps H _ IHK]; [constructor|]. inversion TB as [|? ? (k & E) TB2]; subst. constructor; [|apply IHK, TB2].
    cbn [fst snd]. rewrite E. split; [apply T|]. apply coded_cols, H.
Qed.
Lemma readable_page base (p : laid_page) ops : Forall (readable_drawing base) (pg_content (fst p)) -> self_coded (snd p) ->
  page_ops base p = Ok ops -> right_codes (fst (view blank ops)).
Proof.
  intros D O E. unfold page_ops in E. apply bind_ok in E as (l & M & E). apply Ok_inj in E. subst.
  apply self_app; [eapply drawings_coded; eassumption|exact O].
Qed.
(** ** The text of a paragraph in its font *)
Lemma items_one f l : Forall (item_in (fun g _ => f = g \/ is_builtin f = true /\ is_builtin g = true)) l ->
  items_txt l = map (legible f) (map fst (items_chars l)).
Proof.
  induction 1 as [|i l H _ IH]; [reflexivity|]. unfold items_txt. cbn [flat_map]. fold (items_txt l). rewrite IH.
  change (items_chars (i :: l)) with (item_chars i ++ items_chars l). rewrite !map_app. f_equal.
  unfold item_chars. rewrite !map_map. apply map_ext. intros c. cbn [fst].
  assert (X : f = st_font (item_state i) \/ is_builtin f = true /\ is_builtin (st_font (item_state i)) = true).
  { destruct i as [s|t st]; [apply H|exact H]. }
  destruct X as [<-|(A & B)]; [reflexivity|]. unfold legible. rewrite A, B. reflexivity.
Qed.
(** the font a paragraph begins with *)
Definition para_font (base : full) (p : para) : font := st_font (as_state (full_or base (p_style p))).
Definition shape_text (s : shaped) : str := flat_map line_text (shape_lines s).
Lemma shape_txt f s : shape_in (fun g _ => f = g \/ is_builtin f = true /\ is_builtin g = true) s ->
  items_txt (flat_map wl_items (flat_map tl_words (shape_lines s))) = map (legible f) (shape_text s).
Proof.
  intros H. rewrite items_one with (f := f).
  - f_equal. rewrite words_chars. unfold shape_text. generalize (shape_lines s). intros l. unfold line_text, measured_all.
    induction l as [|x l IH]; [reflexivity|]. cbn [flat_map]. rewrite flat_map_app, map_app. f_equal. exact IH.
  - rewrite <- (shape_items s (mkXY n0 n0) n0). apply ops_items, sh_ops_in, H.
Qed.
Lemma para_txt fuel p base cs added out : coherent (para_fonts p base) -> para_columns fuel p base cs = Ok out -> adds cs added out ->
  items_txt (flat_map wl_items (flat_map tl_words (flat_map shape_lines (concat added))))
    = map (legible (para_font base p)) (flat_map shape_text (concat added)).
Proof.
  intros CO E A.
  destruct (para_shapes_in (fun g => para_font base p = g \/ is_builtin (para_font base p) = true /\ is_builtin g = true) fuel p base cs out) as (added' & _ & A' & S).
  { intros g I. apply CO; [left; reflexivity|exact I]. }
  { exact E. }
  rewrite <- (adds_unique _ _ _ _ A A') in S. induction S as [|s l H _ IH]; [reflexivity|]. cbn [flat_map]. rewrite !flat_map_app, map_app.
  unfold items_txt in *. rewrite flat_map_app, IH. f_equal. apply shape_txt, H.
Qed.
End S.
