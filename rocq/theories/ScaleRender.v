(** * ScaleRender: the operators of pages in another size. *)
From Coq Require Import QArith Qcanon Qround.
From Verif Require Import Base Gfmt Num Fonts State Style Words Parse Show Render Firstfit KnuthPlass Optimum Common Draw Layout
  ScaleWords ScaleText ScaleLines ScaleLayout.
From Coq Require Import Lia.
Local Open Scope list_scope.
Open Scope nat_scope.

(** Lengths [k] times as large; the strings shown, the adjustments between them (in
    thousandths of the font size), fonts and colours the same. *)
Inductive larger_op {ENV : Env QcNum} (k : scaling) : @op QcNum -> @op QcNum -> Prop :=
| lo_bt : larger_op k OBT OBT
| lo_et : larger_op k OET OET
| lo_star : larger_op k OTstar OTstar
| lo_td (x y : Qc) : larger_op k (@OTd QcNum x y) (@OTd QcNum (x * k)%Qc (y * k)%Qc)
| lo_tD (x y : Qc) : larger_op k (@OTD QcNum x y) (@OTD QcNum (x * k)%Qc (y * k)%Qc)
| lo_tl (l : Qc) : larger_op k (@OTL QcNum l) (@OTL QcNum (l * k)%Qc)
| lo_tf f (z : Qc) : larger_op k (@OTf QcNum f z) (@OTf QcNum f (z * k)%Qc)
| lo_rg c : larger_op k (Org c) (Org (recolour k c))
| lo_tj l l' : (forall cs, items_tj l' cs = items_tj l cs) -> larger_op k (OTJ l) (OTJ l')
| lo_m (x y : Qc) : larger_op k (@Om QcNum x y) (@Om QcNum (x * k)%Qc (y * k)%Qc)
| lo_l (x y : Qc) : larger_op k (@Ol QcNum x y) (@Ol QcNum (x * k)%Qc (y * k)%Qc)
| lo_c (a b c d e f : Qc) : larger_op k (@Oc QcNum a b c d e f) (@Oc QcNum (a * k)%Qc (b * k)%Qc (c * k)%Qc (d * k)%Qc (e * k)%Qc (f * k)%Qc)
| lo_re (x y w h : Qc) : larger_op k (@Ore QcNum x y w h) (@Ore QcNum (x * k)%Qc (y * k)%Qc (w * k)%Qc (h * k)%Qc)
| lo_rgD c : larger_op k (OrgD c) (OrgD (recolour k c)) | lo_RG c : larger_op k (ORG c) (ORG (recolour k c))
| lo_b : larger_op k Ob Ob | lo_B : larger_op k OB OB | lo_f : larger_op k Of Of | lo_s : larger_op k Os Os | lo_S : larger_op k OS OS | lo_n : larger_op k On On.

Section Scale.
Context {ENV : Env QcNum}.
Variable k : scaling.
Hypothesis K : (0 < k)%Qc.
Hypothesis G : forall a b, rgb_eqb (recolour k a) (recolour k b) = rgb_eqb a b.
Notation lop := (larger_op k).
Ltac zz := match goal with |- @eq _ ?a ?b => change (@eq Qc a b) end; cbn [nadd nsub nmul ndiv nneg QcNum]; ring.
Definition zitem (i : @titem QcNum) : @titem QcNum := match i with ISlug s => ISlug (zslug k s) | ISpace t st => ISpace (zts k t) (zst k st) end.
Definition zop (o : @op QcNum) : @op QcNum :=
  match o with
  | OTd x y => @OTd QcNum (x * k)%Qc (y * k)%Qc | OTD x y => @OTD QcNum (x * k)%Qc (y * k)%Qc | OTL l => @OTL QcNum (l * k)%Qc
  | OTf f z => @OTf QcNum f (z * k)%Qc | OTJ l => OTJ (map zitem l) | Om x y => @Om QcNum (x * k)%Qc (y * k)%Qc | Ol x y => @Ol QcNum (x * k)%Qc (y * k)%Qc
  | Oc a b c d e f => @Oc QcNum (a * k)%Qc (b * k)%Qc (c * k)%Qc (d * k)%Qc (e * k)%Qc (f * k)%Qc | Ore x y w h => @Ore QcNum (x * k)%Qc (y * k)%Qc (w * k)%Qc (h * k)%Qc
  | Org c => Org (recolour k c) | OrgD c => OrgD (recolour k c) | ORG c => ORG (recolour k c)
  | _ => o
  end.
Lemma z_tj l : forall cs, items_tj (map zitem l) cs = items_tj l cs.
Proof. induction l as [|i l IH]; intros cs; [reflexivity|]. cbn [map items_tj]. assert (E : item_tj (zitem i) cs = item_tj i cs) by (destruct i; reflexivity). rewrite E. destruct (item_tj i cs) as [a cs1]. rewrite IH. reflexivity. Qed.
Lemma z_larger l : Forall2 lop l (map zop l).
Proof. induction l as [|o l IH]; constructor; [|exact IH]. destruct o; constructor. apply z_tj. Qed.
Lemma z_cmd c : cmd_ops (zcmd k c) = map zop (cmd_ops c).
Proof.
  induction c as [| f z | x | c | h | l IH] using (@command_ind' QcNum); try reflexivity. cbn [zcmd cmd_ops].
  induction IH as [|c l C _ IH]; [reflexivity|]. cbn [map flat_map]. rewrite map_app, C. f_equal. exact IH.
Qed.
Definition zout (x : list (@op QcNum) * list (@titem QcNum)) := (map zop (fst x), map zitem (snd x)).
Lemma z_segs l : forall ln, segs_into_line (map (zseg k) l) (map zitem ln) = zout (segs_into_line l ln).
Proof.
  induction l as [|[s c] l IH]; intros ln; cbn [map segs_into_line]; [reflexivity|]. unfold zseg at 1. cbn [fst snd]. specialize (IH []). cbn [map] in IH. rewrite IH.
  destruct (segs_into_line l []) as [o ln']. unfold zout. cbn [fst snd map zop]. rewrite !map_app, z_cmd. reflexivity.
Qed.
Lemma z_box_line b ln : box_into_line (zbox k b) (map zitem ln) = zout (box_into_line b ln).
Proof. destruct b as [s|l st]; cbn [zbox box_into_line]; [|apply z_segs]. unfold zout. cbn [fst snd map]. rewrite map_app. reflexivity. Qed.
Lemma z_boxes_line l : forall ln, boxes_into_line (map (zbox k) l) (map zitem ln) = zout (boxes_into_line l ln).
Proof.
  induction l as [|b l IH]; intros ln; cbn [map boxes_into_line]; [reflexivity|]. rewrite z_box_line. destruct (box_into_line b ln) as [o1 ln1]. unfold zout at 1. cbn [fst snd].
  rewrite IH. destruct (boxes_into_line l ln1) as [o2 ln2]. unfold zout. cbn [fst snd]. rewrite map_app. reflexivity.
Qed.
Lemma z_into_line w : forall ln, into_line (zwl k w) (map zitem ln) = zout (into_line w ln).
Proof.
  induction w as [b|w|w IH c]; intros ln; cbn [zwl into_line]; [apply z_box_line| |].
  - unfold word_into_line. cbn [zword w_boxes w_tail w_state]. rewrite z_boxes_line. destruct (boxes_into_line (w_boxes w) ln) as [o ln']. unfold zout. cbn [fst snd].
    destruct (w_tail w); cbn [option_map]; [rewrite map_app|]; reflexivity.
  - rewrite IH. destruct (into_line w ln) as [o ln']. unfold zout. cbn [fst snd]. rewrite map_app, z_cmd. reflexivity.
Qed.
Lemma z_words_line l : forall ln, words_into_line (map (zwl k) l) (map zitem ln) = zout (words_into_line l ln).
Proof.
  induction l as [|w l IH]; intros ln; cbn [map words_into_line]; [reflexivity|]. rewrite z_into_line. destruct (into_line w ln) as [o1 ln1]. unfold zout at 1. cbn [fst snd].
  rewrite IH. destruct (words_into_line l ln1) as [o2 ln2]. unfold zout. cbn [fst snd]. rewrite map_app. reflexivity.
Qed.
Lemma z_line_ops ws : line_ops (map (zwl k) ws) = map zop (line_ops ws).
Proof.
  unfold line_ops. assert (E := z_words_line ws []). cbn [map] in E. rewrite E. destruct (words_into_line ws []) as [o ln]. unfold zout. cbn [fst snd]. rewrite map_app. reflexivity.
Qed.
Lemma z_tline_ops l : tline_ops (scaled_tline k l) = map zop (tline_ops l).
Proof. unfold tline_ops. cbn [scaled_tline tl_cmd tl_words]. rewrite z_cmd, z_line_ops, map_app. reflexivity. Qed.
Lemma z_neg a : @nneg QcNum (a * k)%Qc = (@nneg QcNum a * k)%Qc. Proof. zz. Qed.
Lemma z_half (a : Qc) : @ndiv QcNum (a * k)%Qc (nZ 2) = (@ndiv QcNum a (nZ 2) * k)%Qc.
Proof. cbn [ndiv QcNum]. change (a * k * / @nZ QcNum 2 = a * / @nZ QcNum 2 * k)%Qc. rewrite <- !Qcmult_assoc. f_equal. apply Qcmult_comm. Qed.
Lemma z_left ls lead : render_left (map (scaled_tline k) ls) (lead * k)%Qc = map zop (@render_left QcNum ls lead).
Proof.
  unfold render_left. cbn [map zop]. f_equal. induction ls as [|l ls IH]; [reflexivity|]. cbn [map flat_map]. rewrite map_app, (z_tline_ops l), IH. reflexivity.
Qed.
Lemma z_centered ls lead : forall prev, render_centered (map (scaled_tline k) ls) (lead * k)%Qc (prev * k)%Qc = map zop (@render_centered QcNum ls lead prev).
Proof.
  induction ls as [|l ls IH]; intros prev; cbn [map render_centered]; [reflexivity|]. rewrite (z_tline_ops l). cbn [scaled_tline tl_width].
  rewrite IH, z_sub, z_half, z_neg, map_app. reflexivity.
Qed.
Lemma z_right ls lead : forall prev, render_right (map (scaled_tline k) ls) (lead * k)%Qc (prev * k)%Qc = map zop (@render_right QcNum ls lead prev).
Proof.
  induction ls as [|l ls IH]; intros prev; cbn [map render_right]; [reflexivity|]. rewrite (z_tline_ops l). cbn [scaled_tline tl_width].
  rewrite IH, z_sub, z_neg, map_app. reflexivity.
Qed.
Lemma z_pre ls : text_pre_state (map (scaled_tline k) ls) = option_map (zst k) (text_pre_state ls).
Proof.
  unfold text_pre_state, text_words. assert (E : flat_map tl_words (map (scaled_tline k) ls) = map (zwl k) (flat_map tl_words ls)).
  { induction ls as [|l ls IH]; [reflexivity|]. cbn [map flat_map]. rewrite IH, map_app. reflexivity. }
  rewrite E. destruct (flat_map tl_words ls) as [|w r]; [reflexivity|]. cbn [map option_map]. rewrite z_wl_state. reflexivity.
Qed.
Lemma z_shape_ops s pos width : sh_ops (scaled_shaped k s) (scaled_xy k pos) (width * k)%Qc = map zop (@sh_ops QcNum s pos width).
Proof.
  destruct s as [ls lead a h|p q c h]; [|reflexivity]. cbn [scaled_shaped sh_ops]. rewrite z_pre. unfold render_text. cbn [map zop scaled_xy px py]. f_equal. f_equal.
  rewrite !map_app. f_equal; [destruct (text_pre_state ls); reflexivity|]. f_equal.
  destruct a; cbn [render_lines]; [apply z_left|apply z_centered|apply z_right|apply z_left].
Qed.
Lemma z_col_ops c : cf_ops (scaled_fill k c) = map zop (cf_ops c).
Proof.
  unfold cf_ops. cbn [scaled_fill cf_blocks cf_box scaled_column c_width]. induction (cf_blocks c) as [|[p s] l IH]; [reflexivity|]. cbn [map flat_map fst snd] in *.
  rewrite map_app, IH. rewrite (z_shape_ops s p _). reflexivity.
Qed.
(** ** Drawings *)
Lemma z_finish f s c : finish (option_map (recolour k) f) (option_map (recolour k) s) c = map zop (finish f s c).
Proof. destruct f, s, c; reflexivity. Qed.
Lemma z_mulr (a b : Qc) : @nmul QcNum (a * k)%Qc b = (@nmul QcNum a b * k)%Qc. Proof. zz. Qed.
Lemma z_ellipse c (w h : Qc) f s : ellipse_ops (scaled_xy k c) (w * k)%Qc (h * k)%Qc (option_map (recolour k) f) (option_map (recolour k) s) = map zop (@ellipse_ops QcNum c w h f s).
Proof.
  unfold ellipse_ops. cbv zeta. rewrite map_app, z_finish. cbn [map zop scaled_xy px py]. repeat first [rewrite z_half|rewrite z_mulr|rewrite z_sub|rewrite z_add]. reflexivity.
Qed.
Definition zpt (p : @num QcNum * @num QcNum) : @num QcNum * @num QcNum := ((fst p * k)%Qc, (snd p * k)%Qc).
Lemma z_first p : first_point (scaled_point k p) = rmap zpt (first_point p).
Proof. destruct p as [q|[|x [|y [|z l]]]|]; reflexivity. Qed.
Lemma z_other p : other_point (scaled_point k p) = rmap zpt (other_point p).
Proof. destruct p as [q|[|x [|y [|z l]]]|]; reflexivity. Qed.
Lemma z_polyline ps close f s : polyline_ops (map (scaled_point k) ps) close (option_map (recolour k) f) (option_map (recolour k) s) = rmap (map zop) (@polyline_ops QcNum ps close f s).
Proof.
  destruct ps as [|p ps]; [reflexivity|]. cbn [map polyline_ops]. rewrite z_first. destruct (first_point p) as [a|e]; [|reflexivity]. unfold rmap at 1. cbn [bind].
  rewrite (z_mapM other_point (scaled_point k) zpt) by exact z_other. destruct (mapM other_point ps) as [l|e]; [|reflexivity]. unfold rmap. cbn [bind map].
  rewrite map_app, z_finish, !map_map. reflexivity.
Qed.
Lemma z_sum_width ws : @nsum QcNum (map wl_width (map (zwl k) ws)) = (@nsum QcNum (map wl_width ws) * k)%Qc.
Proof. rewrite <- z_sum, !map_map. f_equal. apply map_ext. intros w. apply z_wl_width. Qed.
Lemma z_text_lines gs : forall st, text_lines (map (map (zpsg k)) gs) (zst k st) = rmap (map (scaled_tline k)) (text_lines gs st).
Proof.
  induction gs as [|g gs IH]; intros st; [reflexivity|]. cbn [map text_lines]. rewrite z_into by exact K. destruct (into_words g st) as [[[cmd ws] ex]|e]; [|reflexivity].
  unfold rmap at 1. cbn [bind fst snd]. rewrite z_sum_width, <- map_rev.
  assert (E : match map (zwl k) (rev ws) with w :: _ => wl_state w | [] => zst k st end = zst k match rev ws with w :: _ => wl_state w | [] => st end) by (destruct (rev ws); [reflexivity|apply z_wl_state]).
  rewrite E. destruct ex; [|reflexivity]. rewrite IH. destruct (text_lines gs _) as [ls|e]; reflexivity.
Qed.
Lemma z_render x y st (w : Qc) ls (lead : Qc) a :
  render_text (x * k)%Qc (y * k)%Qc (option_map (zst k) st) (w * k)%Qc (map (scaled_tline k) ls) (lead * k)%Qc a = map zop (@render_text QcNum x y st w ls lead a).
Proof.
  unfold render_text. cbn [map zop]. do 2 f_equal. rewrite !map_app. f_equal; [destruct st; reflexivity|]. f_equal.
  destruct a; cbn [render_lines]; [apply z_left|apply z_centered|apply z_right|apply z_left].
Qed.
Lemma z_text loc c sty a base : text_ops (scaled_xy k loc) (map (scaled_item k) c) (scaled_style k sty) a (scaled_full k base) = rmap (map zop) (text_ops loc c sty a base).
Proof.
  unfold text_ops. rewrite z_flatten, z_splitlines by assumption. change (as_state (scaled_full k base)) with (zst k (as_state base)). rewrite z_text_lines, z_max_lead by exact K.
  destruct (text_lines (splitlines (flatten base sty c)) (as_state base)) as [ls|e]; [|reflexivity]. unfold rmap. cbn [bind].
  rewrite (z_0 k) at 1. cbn [scaled_xy px py]. rewrite <- z_render. reflexivity.
Qed.
Lemma z_draw d base : draw_ops (scaled_drawing k d) (scaled_full k base) = rmap (map zop) (draw_ops d base).
Proof.
  destruct d as [a b s|o w h f s|c w h f s|c r f s|ps cl f s|loc c st a]; cbn [scaled_drawing draw_ops]; [| | | |apply z_polyline|apply z_text]; unfold rmap; cbn [bind]; f_equal.
  - rewrite map_app, <- z_finish. reflexivity.
  - cbn [map zop]. rewrite <- z_finish. reflexivity.
  - apply z_ellipse.
  - cbv zeta. rewrite z_mulr. apply z_ellipse.
Qed.
End Scale.
