(** * C99: colours do not matter for the layout. *)
From Coq Require Import QArith Qcanon String.
From Verif Require Import Base Gfmt Num Fonts State Style StateProofs Words Parse Show Render Firstfit KnuthPlass Optimum Common Draw Layout Regroup
  ScaleWords ScaleText ScaleLines ScaleOptimum ScaleLayout ScaleRender
  Properties_Words Properties_Text Properties_Layout Properties_Scale.
From Coq Require Import Lia.
Local Open Scope string_scope.
Local Open Scope list_scope.
Open Scope nat_scope.

(** ** The same document in other colours: [g c] for each colour [c] *)
Section Recolour.
Variable g : @rgb QcNum -> @rgb QcNum.
Definition recolour_style (s : @style QcNum) : @style QcNum :=
  mkStyle (s_font s) (s_size s) (s_bold s) (s_italic s) (option_map g (s_color s)) (s_spacing s) (s_hyphens s).
Definition recolour_full (f : @full QcNum) : @full QcNum :=
  mkFull (fs_font f) (fs_size f) (fs_bold f) (fs_italic f) (g (fs_color f)) (fs_spacing f) (fs_hyphens f).
Fixpoint recolour_item (i : @item QcNum) : @item QcNum :=
  match i with IStr s => IStr s | ISpan st c => ISpan (recolour_style st) (map recolour_item c) end.
Definition recolour_block (b : @block QcNum) : @block QcNum :=
  match b with
  | BPara p => BPara (mkPara (map recolour_item (p_content p)) (recolour_style (p_style p)) (p_align p) (p_indent p) (p_orphans p) (p_optimal p))
  | BRule c m => BRule (g c) m
  end.
Definition recolour_drawing (d : @drawing QcNum) : @drawing QcNum :=
  match d with
  | DLine a b s => DLine a b (option_map g s)
  | DRect o w h f s => DRect o w h (option_map g f) (option_map g s)
  | DEllipse c w h f s => DEllipse c w h (option_map g f) (option_map g s)
  | DCircle c r f s => DCircle c r (option_map g f) (option_map g s)
  | DPolyline ps close f s => DPolyline ps close (option_map g f) (option_map g s)
  | DText loc c st a => DText loc (map recolour_item c) (recolour_style st) a
  end.
Definition recolour_page (p : page (@drawing QcNum)) : page (@drawing QcNum) :=
  mkPage (map recolour_drawing (pg_content p)) (pg_size p) (pg_rotate p) (pg_columns p).
(** The same operator with the other colour; a [TJ] with the same strings and adjustments
    (its items remember the state they were made in, which is not written). *)
Inductive recoloured_op {ENV : Env QcNum} : @op QcNum -> @op QcNum -> Prop :=
| ro_rg c : recoloured_op (Org c) (Org (g c)) | ro_rgD c : recoloured_op (OrgD c) (OrgD (g c)) | ro_RG c : recoloured_op (ORG c) (ORG (g c))
| ro_tj l l' : (forall cs, items_tj l' cs = items_tj l cs) -> recoloured_op (OTJ l) (OTJ l')
| ro_other o : match o with Org _ | OrgD _ | ORG _ | OTJ _ => False | _ => True end -> recoloured_op o o.

(** ** As a case of [scaling], by one *)
Definition painted : scaling := mkScaling 1%Qc g.
Lemma one (x : Qc) : (x * factor painted)%Qc = x. Proof. apply Qcmult_1_r. Qed.
Lemma p_xy p : scaled_xy painted p = p. Proof. destruct p as [x y]. unfold scaled_xy. cbn [px py]. rewrite !one. reflexivity. Qed.
Lemma p_style s : scaled_style painted s = recolour_style s.
Proof. destruct s as [f [z|] b i c sp h]; unfold scaled_style, recolour_style; cbn [s_font s_size s_bold s_italic s_color s_spacing s_hyphens option_map]; rewrite ?one; reflexivity. Qed.
Lemma p_full f : scaled_full painted f = recolour_full f.
Proof. unfold scaled_full, recolour_full. rewrite one. reflexivity. Qed.
Lemma p_item i : scaled_item painted i = recolour_item i.
Proof.
  induction i as [t|st c IH] using item_ind'; [reflexivity|]. cbn [scaled_item recolour_item]. rewrite p_style. f_equal. induction IH as [|x l X _ IH]; [reflexivity|]. cbn [map]. rewrite X, IH. reflexivity.
Qed.
Lemma p_items l : map (scaled_item painted) l = map recolour_item l. Proof. apply map_ext, p_item. Qed.
Lemma p_block b : scaled_block painted b = recolour_block b.
Proof.
  destruct b as [p|c m]; cbn [scaled_block recolour_block].
  - unfold scaled_para. rewrite p_items, p_style, one. reflexivity.
  - destruct m as [a b c' d]. unfold scaled_sides. cbn [s_top s_right s_bottom s_left]. rewrite !one. reflexivity.
Qed.
Lemma p_point p : scaled_point painted p = p.
Proof. destruct p as [q|l|]; cbn [scaled_point]; [rewrite p_xy; reflexivity| |reflexivity]. f_equal. rewrite <- (map_id l) at 2. apply map_ext. intros x. apply one. Qed.
Lemma p_drawing d : scaled_drawing painted d = recolour_drawing d.
Proof.
  destruct d as [a b s|o w h f s|c w h f s|c r f s|ps cl f s|loc c st a]; cbn [scaled_drawing recolour_drawing]; rewrite ?p_xy, ?one, ?p_items, ?p_style; try reflexivity.
  f_equal. rewrite <- (map_id ps) at 2. apply map_ext, p_point.
Qed.
Lemma p_column c : scaled_column painted c = c.
Proof. destruct c as [o w h]. unfold scaled_column. cbn [c_origin c_width c_height]. rewrite p_xy, !one. reflexivity. Qed.
Lemma p_page p : scaled_page painted p = recolour_page p.
Proof.
  unfold scaled_page, recolour_page. rewrite p_xy. f_equal; [apply map_ext, p_drawing|]. rewrite <- (map_id (pg_columns p)) at 2. apply map_ext, p_column.
Qed.
Lemma p_op {ENV : Env QcNum} o o' : larger_op painted o o' -> recoloured_op o o'.
Proof. intros L. destruct L; rewrite ?one; try (constructor; assumption); try constructor; exact Logic.I. Qed.
Lemma p_ops {ENV : Env QcNum} l l' : Forall2 (larger_op painted) l l' -> Forall2 recoloured_op l l'.
Proof. induction 1; constructor; [apply p_op; assumption|assumption]. Qed.
End Recolour.
Lemma rgb_same (a b : @rgb QcNum) : rgb_eqb a b = true <-> a = b.
Proof.
  destruct a as [r g b'], b as [r2 g2 b2]. unfold rgb_eqb. cbn [red green blue neqb QcNum]. rewrite !Bool.andb_true_iff, !Qceqb_eq. split; [intros [[-> ->] ->]; reflexivity|intros E; inversion E; auto].
Qed.
Lemma one_to_one g (I : forall a b, g a = g b -> a = b) a b : rgb_eqb (recolour (painted g) a) (recolour (painted g) b) = rgb_eqb a b.
Proof.
  cbn [painted recolour]. destruct (rgb_eqb a b) eqn:E.
  - apply rgb_same in E. subst. apply rgb_same. reflexivity.
  - destruct (rgb_eqb (g a) (g b)) eqn:F; [|reflexivity]. apply rgb_same, I in F. subst. assert (X := proj2 (rgb_same b b) eq_refl). congruence.
Qed.

(** Blocks and pages in any other colours (different ones for different ones): the layout
    fails in the same way, or gives as many pages with as many blocks in the same columns
    and the same room left, and the same operators with the same strings and positions,
    only in the other colours. *)
Theorem C99_other_colours : forall (ENV : Env QcNum) (g : @rgb QcNum -> @rgb QcNum) fuel blocks template base n,
  (forall a b, g a = g b -> a = b) ->
  match auto_pages fuel blocks template base n,
        auto_pages fuel (map (recolour_block g) blocks) (fun i => recolour_page g (template i)) (recolour_full g base) n with
  | Ok pages, Ok pages' =>
      Forall2 (fun p p' => fst p' = recolour_page g (fst p)
                           /\ Forall2 (fun c c' => cf_box c' = cf_box c /\ cf_free c' = cf_free c /\ List.length (cf_blocks c') = List.length (cf_blocks c)
                                                   /\ Forall2 (recoloured_op g) (cf_ops c) (cf_ops c')) (snd p) (snd p')) pages pages'
  | Err e, Err e' => e = e'
  | _, _ => False
  end.
Proof.
  intros ENV g fuel blocks template base n I.
  assert (H := scaled_general (painted g) fuel blocks template base n eq_refl (one_to_one g I)).
  assert (B : map (scaled_block (painted g)) blocks = map (recolour_block g) blocks) by apply map_ext, p_block.
  assert (T : (fun i => scaled_page (painted g) (template i)) = (fun i => recolour_page g (template i))).
  { apply FunctionalExtensionality.functional_extensionality. intros i. apply p_page. }
  rewrite B, T, p_full in H. destruct (auto_pages fuel blocks template base n) as [pages|e]; [|exact H]. destruct (auto_pages fuel (map (recolour_block g) blocks) _ _ n) as [pages'|e']; [|exact H].
  induction H as [|p p' l l' [P C] _ IH]; constructor; [|exact IH]. split; [rewrite P; apply p_page|]. clear -C.
  induction C as [|c c' l l' (X & F & L & O) _ IH]; constructor; [|exact IH]. rewrite X, F, p_column, one. repeat split; [exact L|]. apply p_ops, O.
Qed.
Print Assumptions C99_other_colours.
(** What is drawn by hand, likewise. *)
Theorem C99_drawings : forall (ENV : Env QcNum) (g : @rgb QcNum -> @rgb QcNum) (d : @drawing QcNum) base, (forall a b, g a = g b -> a = b) ->
  match draw_ops d base, draw_ops (recolour_drawing g d) (recolour_full g base) with
  | Ok ops, Ok ops' => Forall2 (recoloured_op g) ops ops'
  | Err e, Err e' => e = e'
  | _, _ => False
  end.
Proof.
  intros ENV g d base I. rewrite <- p_drawing, <- p_full. rewrite (z_draw (painted g) eq_refl (one_to_one g I)). destruct (draw_ops d base) as [ops|e]; [|reflexivity].
  apply p_ops, z_larger.
Qed.
Print Assumptions C99_drawings.

#[local] Existing Instance ex_words.
(** red for green and green for red *)
Definition swapped (c : @rgb QcNum) : @rgb QcNum := @mkRGB QcNum (green c) (red c) (blue c).
Definition red_text : list (@block QcNum) :=
  [BPara (par [IStr (str_of "small "); ISpan (mkStyle None None None None (Some (@mkRGB QcNum 1%Qc 0%Qc 0%Qc)) None None) [IStr (str_of "red")]] false); BPara (par long_text true)].
Definition the_colours (pages : list (@page QcNum (@drawing QcNum) * list (@colfill QcNum))) : list (Q * Q * Q) :=
  flat_map (fun p => flat_map (fun c => flat_map (fun o => match o with Org c => [(this (red c), this (green c), this (blue c))] | _ => [] end) (cf_ops c)) (snd p)) pages.
Example C99_example :
  (forall a b, swapped a = swapped b -> a = b)
  /\ let pages := ok_or [] (auto_pages 100 red_text ex_template full_default 1) in
     let pages' := ok_or [] (auto_pages 100 (map (recolour_block swapped) red_text) (fun i => recolour_page swapped (ex_template i)) (recolour_full swapped full_default) 1) in
     counted pages = [[(2, 14)]; [(1, 10); (2, 12)]; [(1, 10)]; [(1, 10); (1, 10)]] /\ counted pages' = counted pages
     /\ the_colours pages = repeat (1, 0, 0)%Q 2 ++ repeat (0, 0, 0)%Q 5 /\ the_colours pages' = repeat (0, 1, 0)%Q 2 ++ repeat (0, 0, 0)%Q 5.
Proof.
  split; [intros [a b c] [d e f] E; inversion E; reflexivity|]. cbn zeta. repeat split; vm_compute; reflexivity.
Qed.
