(** * ReaderParas: the text of laid out paragraphs, as extracted. *)
From Coq Require Import QArith String.
From Verif Require Import Base Gfmt GfmtProofs Atoms PdfSpec AtomsProofs FileProofs NameProofs FontSpec FontProofs ContentSpec ContentProofs ReaderSpec.
From Verif Require Import Num Fonts State Style Words WordsSpec Parse Render RenderSpec RenderProofs Firstfit KnuthPlass
  Optimum Common Show Draw Layout LayoutSpec LayoutProofs LayoutPages ContentOps FontsUsed ReaderText ContentText Document DocumentSpec DocumentProofs ReaderDoc ReaderStd.
Local Open Scope list_scope.
Open Scope nat_scope.

Section S.
Context {NUM : Num} {ENV : Env NUM}.
Definition items_of (ops : list op) : list titem := flat_map (fun o => match o with OTJ l => l | _ => [] end) ops.
Lemma items_of_app a b : items_of (a ++ b) = items_of a ++ items_of b. Proof. apply flat_map_app. Qed.
Lemma view_items ops : forall v, flat_map sh_items (fst (view v ops)) = items_of ops.
Proof.
  induction ops as [|o ops IH]; intros v; [reflexivity|]. cbn [view]. specialize (IH (vstep v o)). destruct (view (vstep v o) ops) as [out v'].
  cbn [fst] in *. unfold items_of. cbn [flat_map]. fold (items_of ops). rewrite <- IH. destruct o; reflexivity.
Qed.
Lemma shown_items l : shown_text l = items_txt (flat_map sh_items l).
Proof.
  unfold shown_text, items_txt. induction l as [|s l IH]; [reflexivity|]. cbn [flat_map]. rewrite flat_map_app, IH. reflexivity.
Qed.
Lemma still_items o i : still o i -> items_of o = i.
Proof. intros H. destruct (H blank) as (_ & _ & E). rewrite <- E. symmetry. apply view_items. Qed.
Lemma tline_items l : items_of (tline_ops l) = flat_map wl_items (tl_words l).
Proof. apply still_items, tline_still. Qed.
Lemma lines_items a ls lead width : items_of (render_lines a ls lead width) = flat_map wl_items (flat_map tl_words ls).
Proof.
  destruct a; cbn [render_lines].
  1,4: (unfold render_left, items_of; cbn [flat_map app]; induction ls as [|l ls IH]; [reflexivity|]; cbn [flat_map app]; fold (items_of (tline_ops l ++ flat_map (fun l => OTstar :: tline_ops l) ls));
        rewrite items_of_app, tline_items, flat_map_app; f_equal; exact IH).
  all: revert width; induction ls as [|l ls IH]; intros width; [reflexivity|]; cbn [flat_map]; rewrite flat_map_app, <- tline_items, <- (IH (tl_width l)), <- items_of_app; reflexivity.
Qed.
Lemma render_items x y st width ls lead a : items_of (render_text x y st width ls lead a) = flat_map wl_items (flat_map tl_words ls).
Proof.
  unfold render_text. change (OBT :: OTd x y :: ?r) with ([OBT; OTd x y] ++ r). rewrite !items_of_app, lines_items.
  replace (items_of match st with Some s => state_ops s | None => [] end) with (@nil titem) by (destruct st; reflexivity).
  cbn. rewrite app_nil_r. reflexivity.
Qed.
(** the characters of words *)
Lemma box_chars b : items_chars (box_items b) = measured_box b.
Proof.
  destruct b as [s|segs st]; cbn [box_items measured_box].
  - unfold items_chars. cbn. rewrite app_nil_r. reflexivity.
  - unfold measured_segs, items_chars. induction segs as [|p l IH]; [reflexivity|]. cbn [map flat_map]. rewrite IH. reflexivity.
Qed.
Lemma items_chars_app a b : items_chars (a ++ b) = items_chars a ++ items_chars b. Proof. apply flat_map_app. Qed.
Lemma wl_chars w : items_chars (wl_items w) = measured w.
Proof.
  induction w as [b|w|w IH c]; cbn [wl_items measured]; [apply box_chars| |exact IH].
  unfold measured_word. rewrite items_chars_app. f_equal; [|destruct (w_tail w); reflexivity].
  induction (w_boxes w) as [|b l IH]; [reflexivity|]. cbn [flat_map]. rewrite items_chars_app, box_chars, IH. reflexivity.
Qed.
Lemma words_chars ws : items_chars (flat_map wl_items ws) = measured_all ws.
Proof. induction ws as [|w ws IH]; [reflexivity|]. cbn [flat_map]. rewrite items_chars_app, wl_chars, IH. reflexivity. Qed.
(** what is left of a character in the standard fonts *)
Definition plain_char (c : char) : char := if encodable c then c else 63%N.
Lemma items_std l : Forall (item_in (fun f _ => std f)) l -> items_txt l = map plain_char (map fst (items_chars l)).
Proof.
  induction 1 as [|i l H _ IH]; [reflexivity|]. unfold items_txt. cbn [flat_map]. fold (items_txt l). rewrite IH.
  change (items_chars (i :: l)) with (item_chars i ++ items_chars l). rewrite !map_app. f_equal.
  unfold item_chars. rewrite !map_map. apply map_ext. intros c. cbn [fst]. unfold legible, plain_char.
  assert (is_builtin (st_font (item_state i)) = true) as ->.
  { destruct i as [s|t st]; [apply H|exact H]. }
  cbn [andb]. destruct (encodable c); reflexivity.
Qed.
Lemma ops_items F ops : ops_in F ops -> Forall (item_in F) (items_of ops).
Proof.
  induction 1 as [|o ops H _ IH]; [constructor|]. unfold items_of. cbn [flat_map]. fold (items_of ops). apply Forall_app. split; [|exact IH].
  destruct o; try constructor. exact H.
Qed.
(** the text laid out on a page *)
Lemma shape_items s pos width : items_of (sh_ops s pos width) = flat_map wl_items (flat_map tl_words (shape_lines s)).
Proof. destruct s; cbn [sh_ops shape_lines]; [apply render_items|reflexivity]. Qed.
Lemma cols_items cs : items_of (flat_map cf_ops cs) = flat_map wl_items (flat_map tl_words (flat_map shape_lines (flat_map col_shapes cs))).
Proof.
  induction cs as [|c cs IH]; [reflexivity|]. cbn [flat_map]. rewrite items_of_app, IH, !flat_map_app. f_equal.
  unfold cf_ops, col_shapes. induction (cf_blocks c) as [|[pos s] l IHl]; [reflexivity|]. cbn [flat_map map fst snd].
  rewrite items_of_app, IHl, shape_items, !flat_map_app. reflexivity.
Qed.
Lemma body_text (p : page drawing * list colfill) : ops_in (fun f _ => std f) (flat_map cf_ops (snd p)) ->
  items_txt (items_of (flat_map cf_ops (snd p))) = map plain_char (flat_map line_text (flat_map shape_lines (page_shapes p))).
Proof.
  intros H. rewrite items_std by (apply ops_items, H). f_equal. rewrite cols_items, words_chars. unfold page_shapes.
  generalize (flat_map shape_lines (flat_map col_shapes (snd p))). intros l. unfold line_text, measured_all.
  induction l as [|x l IH]; [reflexivity|]. cbn [flat_map]. rewrite flat_map_app, map_app. f_equal. exact IH.
Qed.
(** the pages of a document are determined *)
Lemma laid_unique fuel base items n pages : laid fuel base items n pages -> forall pages', laid fuel base items n pages' -> pages' = pages.
Proof.
  induction 1 as [n|p items n pages L IH|blocks template items n ps pages A L IH]; intros pages' L'; inversion L'; subst; [reflexivity| |].
  - f_equal. auto.
  - rewrite A in *. match goal with X : Ok ps = Ok ?y |- _ => apply Ok_inj in X; subst y end. f_equal. auto.
Qed.
End S.
