(** * Drawings and blocks show the same whatever was drawn before *)
From Verif Require Import Base Num Fonts State Style Words Parse Render Common Draw DrawSpec Show Layout SceneSpec.
Open Scope nat_scope.

Section Proofs.
Context {NUM : Num} {ENV : Env NUM}.
Implicit Types (g : gfx).

Lemma scene_app a b : forall g, scene g (a ++ b) =
  match scene g a with
  | None => None
  | Some (g1, m1) => match scene g1 b with None => None | Some (g2, m2) => Some (g2, m1 ++ m2) end
  end.
Proof.
  induction a as [|o a IH]; intros g; cbn [app scene].
  - destruct (scene g b) as [[]|]; reflexivity.
  - destruct (scene1 g o) as [[g1 m1]|]; [|reflexivity]. rewrite IH.
    destruct (scene g1 a) as [[g2 m2]|]; [|reflexivity]. destruct (scene g2 b) as [[g3 m3]|]; [|reflexivity].
    now rewrite app_assoc.
Qed.
Lemma alone_app a b m n : shows_alone a m -> shows_alone b n -> shows_alone (a ++ b) (m ++ n).
Proof.
  intros A B g G. destruct (A g G) as (g1 & G1 & E1). destruct (B g1 G1) as (g2 & G2 & E2).
  exists g2. split; [exact G2|]. now rewrite scene_app, E1, E2.
Qed.
Lemma alone_concat l ms : Forall2 shows_alone l ms -> shows_alone (concat l) (concat ms).
Proof.
  induction 1 as [|a m l ms A _ IH]; cbn [concat]; [|now apply alone_app].
  intros g G. exists g. split; [exact G|reflexivity].
Qed.

(** ** Shapes *)
Definition plain_text_op (o : op) : Prop :=
  match o with
  | OTd _ _ | OTD _ _ | OTstar | OTL _ | OTf _ _ | Org _ | OTJ _ => True
  | _ => False
  end.
Definition silent_op (o : op) : Prop :=
  match o with
  | OTd _ _ | OTD _ _ | OTstar | OTL _ | OTf _ _ | Org _ | OTJ [] => True
  | _ => False
  end.
(** states within a text object that show the same *)
Definition teq g h : Prop :=
  x_font g = x_font h /\ x_size g = x_size h /\ x_fill g = x_fill h /\ x_lead g = x_lead h
  /\ x_x g = x_x h /\ x_y g = x_y h /\ x_path g = [] /\ x_path h = [] /\ x_text g = true /\ x_text h = true.
Lemma teq_run os : Forall plain_text_op os -> forall g h, teq g h ->
  exists g' h' ms, scene g os = Some (g', ms) /\ scene h os = Some (h', ms) /\ teq g' h'.
Proof.
  induction 1 as [|o os P _ IH]; intros g h T; cbn [scene].
  - exists g, h, []. auto.
  - assert (X : exists g1 h1 m, scene1 g o = Some (g1, m) /\ scene1 h o = Some (h1, m) /\ teq g1 h1).
    { destruct T as (A & B & C & D & E & F & G & H & I & J).
      destruct o; cbn [plain_text_op] in P; try contradiction; cbn [scene1]; rewrite ?I, ?J;
        try (do 3 eexists; split; [reflexivity|]; split; [reflexivity|];
             unfold teq; cbn; rewrite ?A, ?B, ?C, ?D, ?E, ?F; repeat split; assumption).
      destruct items; (do 3 eexists; split; [reflexivity|]; split; [rewrite ?A, ?B, ?C, ?E, ?F; reflexivity|]);
        unfold teq; repeat split; assumption. }
    destruct X as (g1 & h1 & m & X & Y & T1). rewrite X, Y.
    destruct (IH g1 h1 T1) as (g2 & h2 & m2 & X2 & Y2 & T2). rewrite X2, Y2.
    exists g2, h2, (m ++ m2). auto.
Qed.
Lemma silent_run os : Forall silent_op os -> forall g, x_path g = [] -> x_text g = true ->
  exists g', scene g os = Some (g', []) /\ x_path g' = [] /\ x_text g' = true.
Proof.
  induction 1 as [|o os P _ IH]; intros g A B; cbn [scene]; [eauto|].
  assert (X : exists g1, scene1 g o = Some (g1, []) /\ x_path g1 = [] /\ x_text g1 = true).
  { destruct o; cbn [silent_op] in P; try contradiction; cbn [scene1]; rewrite ?B;
      try (eexists; split; [reflexivity|]; split; [exact A|exact B]).
    destruct items; [|contradiction]. eauto. }
  destruct X as (g1 & X & A1 & B1). rewrite X. destruct (IH g1 A1 B1) as (g2 & Y & A2 & B2). rewrite Y. eauto.
Qed.

(** ** The operators of text *)
Lemma plain_cmd c : Forall plain_text_op (cmd_ops c).
Proof.
  induction c as [| f z | x | c | h | l IH] using command_ind'; try (repeat constructor).
  cbn [cmd_ops]. induction IH as [|c l Hc _ IHl]; [constructor|]. cbn [flat_map]. apply Forall_app; auto.
Qed.
Lemma silent_cmd c : Forall silent_op (cmd_ops c).
Proof.
  induction c as [| f z | x | c | h | l IH] using command_ind'; try (repeat constructor).
  cbn [cmd_ops]. induction IH as [|c l Hc _ IHl]; [constructor|]. cbn [flat_map]. apply Forall_app; auto.
Qed.
Lemma plain_segs l : forall ln, Forall plain_text_op (fst (segs_into_line l ln)).
Proof.
  induction l as [|[x c] l IH]; intros ln; cbn [segs_into_line]; [constructor|].
  specialize (IH []). destruct (segs_into_line l []) as [o ln']. cbn [fst] in *.
  constructor; [exact I|]. apply Forall_app; split; [apply plain_cmd|exact IH].
Qed.
Lemma plain_box b ln : Forall plain_text_op (fst (box_into_line b ln)).
Proof. destruct b; cbn; [constructor|apply plain_segs]. Qed.
Lemma plain_boxes l : forall ln, Forall plain_text_op (fst (boxes_into_line l ln)).
Proof.
  induction l as [|b l IH]; intros ln; cbn [boxes_into_line]; [constructor|].
  pose proof (plain_box b ln) as H. destruct (box_into_line b ln) as [o1 ln1].
  specialize (IH ln1). destruct (boxes_into_line l ln1). cbn [fst] in *. apply Forall_app; auto.
Qed.
Lemma plain_wl w : forall ln, Forall plain_text_op (fst (into_line w ln)).
Proof.
  induction w as [b|w|w IH c]; intros ln; cbn [into_line].
  - apply plain_box.
  - unfold word_into_line. pose proof (plain_boxes (w_boxes w) ln) as H.
    destruct (boxes_into_line (w_boxes w) ln). exact H.
  - specialize (IH ln). destruct (into_line w ln). cbn [fst] in *.
    apply Forall_app; split; [exact IH|]. constructor; [exact I|apply plain_cmd].
Qed.
Lemma plain_words l : forall ln, Forall plain_text_op (fst (words_into_line l ln)).
Proof.
  induction l as [|w l IH]; intros ln; cbn [words_into_line]; [constructor|].
  pose proof (plain_wl w ln) as H. destruct (into_line w ln) as [o1 ln1].
  specialize (IH ln1). destruct (words_into_line l ln1). cbn [fst] in *. apply Forall_app; auto.
Qed.
Lemma plain_tline l : Forall plain_text_op (tline_ops l).
Proof.
  unfold tline_ops. apply Forall_app; split; [apply plain_cmd|]. unfold line_ops.
  pose proof (plain_words (tl_words l) []) as H. destruct (words_into_line (tl_words l) []) as [o ln].
  apply Forall_app; split; [exact H|repeat constructor].
Qed.
Lemma silent_tline l : tl_words l = [] -> Forall silent_op (tline_ops l).
Proof.
  intros E. unfold tline_ops. rewrite E. apply Forall_app; split; [apply silent_cmd|]. repeat constructor.
Qed.
Section Lines.
Variable P : op -> Prop.
Hypothesis Ptl : forall l, P (OTL l).
Hypothesis Pstar : P OTstar.
Hypothesis Ptd : forall x y, P (OTD x y).
Lemma lines_all a ls ld w : Forall (fun l => Forall P (tline_ops l)) ls -> Forall P (render_lines a ls ld w).
Proof.
  intros H.
  assert (L : Forall P (render_left ls ld)).
  { unfold render_left. constructor; [apply Ptl|]. induction H as [|l ls A _ IH]; cbn [flat_map]; [constructor|].
    constructor; [exact Pstar|]. apply Forall_app; auto. }
  destruct a; cbn [render_lines]; try exact L; clear L; revert w; induction H as [|l ls A _ IH]; intros w; cbn [render_centered render_right];
    try constructor; try apply Ptd; try (apply Forall_app; split; [exact A|apply IH]).
Qed.
End Lines.
Definition x_black : rgb := mkRGB n0 n0 n0.
Definition x_start : gfx := mkGfx None n0 x_black x_black n0 n0 n0 [] false.

Lemma text_alone_some x y s w ls ld a : exists ms, shows_alone (render_text x y (Some s) w ls ld a) ms.
Proof.
  set (os := render_lines a ls ld w).
  assert (PL : Forall plain_text_op os).
  { apply lines_all; try (intros; exact I). apply Forall_forall. intros l _. apply plain_tline. }
  (* the state after the first four operators *)
  set (after g := set_fill (set_font (move (enter g) x y) (st_font s) (st_size s)) (st_color s)).
  assert (X : exists ms, forall g, at_page g -> exists g', scene (after g) os = Some (g', ms) /\ x_path g' = [] /\ x_text g' = true).
  { assert (X : exists ms, forall g, at_page g -> exists g' h', scene (after g) os = Some (g', ms) /\ teq g' h').
    { assert (SAME : forall lead o rest, Forall plain_text_op rest ->
        (forall g, at_page g -> exists dx dy, scene1 (after g) o = Some (move (set_lead (after g) lead) dx dy, [])
            /\ forall h, at_page h -> scene1 (after h) o = Some (move (set_lead (after h) lead) dx dy, []))
        \/ (forall g, at_page g -> scene1 (after g) o = Some (set_lead (after g) lead, [])) ->
        exists ms, forall g, at_page g -> exists g' h', scene (after g) (o :: rest) = Some (g', ms) /\ teq g' h').
      { intros lead o rest R H.
        assert (S0 : at_page x_start) by (split; reflexivity).
        destruct H as [H|H].
        - destruct (H x_start S0) as (dx & dy & E0 & H').
          assert (T : forall g, at_page g -> teq (move (set_lead (after x_start) lead) dx dy) (move (set_lead (after g) lead) dx dy)).
          { intros g [G1 G2]. unfold teq. cbn. rewrite G1. repeat split. }
          destruct (teq_run rest R _ _ (T x_start S0)) as (g0 & _ & ms & R0 & _ & _). exists ms. intros g G.
          destruct (teq_run rest R _ _ (T g G)) as (g1 & h1 & ms1 & R1 & R2 & T1). cbn [scene]. rewrite (H' g G), R2.
          rewrite R0 in R1. injection R1 as <- <-. exists h1, h1. split; [reflexivity|].
          destruct T1 as (?&?&?&?&?&?&?&?&?&?). unfold teq. repeat split; assumption.
        - assert (T : forall g, at_page g -> teq (set_lead (after x_start) lead) (set_lead (after g) lead)).
          { intros g [G1 G2]. unfold teq. cbn. rewrite G1. repeat split. }
          destruct (teq_run rest R _ _ (T x_start S0)) as (g0 & _ & ms & R0 & _ & _). exists ms. intros g G.
          destruct (teq_run rest R _ _ (T g G)) as (g1 & h1 & ms1 & R1 & R2 & T1). cbn [scene]. rewrite (H g G), R2.
          rewrite R0 in R1. injection R1 as <- <-. exists h1, h1. split; [reflexivity|].
          destruct T1 as (?&?&?&?&?&?&?&?&?&?). unfold teq. repeat split; assumption. }
      assert (NIL : exists ms, forall g, at_page g -> exists g' h', scene (after g) [] = Some (g', ms) /\ teq g' h').
      { exists []. intros g [G1 G2]. exists (after g), (after g). split; [reflexivity|]. unfold teq. cbn. rewrite G1. repeat split. }
      assert (LEFT : forall l, Forall plain_text_op (render_left l ld) -> exists ms, forall g, at_page g -> exists g' h', scene (after g) (render_left l ld) = Some (g', ms) /\ teq g' h').
      { intros l F. unfold render_left in *. apply (SAME ld); [now inversion F|]. right. intros g G. reflexivity. }
      unfold os in *. destruct a; cbn [render_lines] in *; try (apply LEFT, PL).
      - destruct ls as [|l ls]; [exact NIL|]. cbn [render_centered] in *. apply (SAME (nneg (nneg ld))); [now inversion PL|].
        left. intros g G. do 2 eexists. split; [reflexivity|]. intros h Hh. reflexivity.
      - destruct ls as [|l ls]; [exact NIL|]. cbn [render_right] in *. apply (SAME (nneg (nneg ld))); [now inversion PL|].
        left. intros g G. do 2 eexists. split; [reflexivity|]. intros h Hh. reflexivity. }
    destruct X as [ms X]. exists ms. intros g G. destruct (X g G) as (g' & h' & E & T). exists g'. split; [exact E|]. split; apply T. }
  destruct X as [ms X]. exists ms. intros g G. destruct (X g G) as (g' & E & P & T).
  exists (leave g'). split; [split; [exact P|reflexivity]|].
  unfold render_text. fold os. destruct G as [G1 G2].
  change (OBT :: OTd x y :: state_ops s ++ os ++ [OET]) with ([OBT; OTd x y; OTf (st_font s) (st_size s); Org (st_color s)] ++ os ++ [OET]).
  rewrite scene_app.
  assert (E0 : scene g [OBT; OTd x y; OTf (st_font s) (st_size s); Org (st_color s)] = Some (after g, [])).
  { cbn [scene scene1]. rewrite G1, G2. reflexivity. }
  rewrite E0, scene_app, E. cbn [scene scene1]. rewrite T. now rewrite !app_nil_r.
Qed.
Lemma text_alone_none x y w ls ld a : flat_map tl_words ls = [] -> shows_alone (render_text x y None w ls ld a) [].
Proof.
  intros N g [G1 G2]. unfold render_text. cbn [app scene scene1]. rewrite G1, G2.
  change (x_text (enter g)) with true. cbv match.
  assert (F : Forall silent_op (render_lines a ls ld w)).
  { apply lines_all; try (intros; exact I). clear -N. induction ls as [|l ls IH]; [constructor|]. cbn [flat_map] in N.
    apply app_eq_nil in N as [N1 N2]. constructor; [now apply silent_tline|auto]. }
  destruct (silent_run _ F (move (enter g) x y) G1 eq_refl) as (g' & E & P & T).
  rewrite scene_app, E. cbn [scene scene1]. rewrite T. exists (leave g'). split; [split; [exact P|reflexivity]|reflexivity].
Qed.
Lemma shaped_alone s pos w : exists ms, shows_alone (sh_ops s pos w) ms.
Proof.
  destruct s as [ls ld a h|p q c h]; cbn [sh_ops].
  - destruct (text_pre_state ls) eqn:E; [apply text_alone_some|]. exists []. apply text_alone_none.
    unfold text_pre_state, text_words in E. destruct (flat_map tl_words ls); [reflexivity|discriminate].
  - eexists. intros g [G1 G2]. destruct g; cbn in G1, G2; subst. cbn. eexists. split; [|reflexivity]. split; reflexivity.
Qed.

(** ** Drawings *)
Lemma scene_lines l r : forall g, x_text g = false -> x_path g <> [] ->
  scene g (map (fun q : num * num => Ol (fst q) (snd q)) l ++ r)
  = scene (set_path g (x_path g ++ map (fun q => SLineTo (fst q) (snd q)) l)) r.
Proof.
  induction l as [|q l IH]; intros g T P; cbn [map app].
  - rewrite app_nil_r. destruct g; reflexivity.
  - cbn [scene scene1]. rewrite T. destruct (x_path g) as [|p0 p] eqn:E; [congruence|].
    rewrite IH; [|exact T|cbn; destruct p; discriminate]. cbn [x_path set_path]. rewrite <- app_assoc. cbn [app].
    destruct (scene _ r) as [[]|]; reflexivity.
Qed.
Lemma finish_alone f s c g : x_text g = false -> x_path g <> [] ->
  exists g', at_page g' /\ scene g (finish f s c) = Some (g',
    match f, s with
    | None, None => []
    | _, _ => [MPath (x_path g) f s (match s with Some _ => c | None => false end)]
    end).
Proof.
  intros T P. destruct (x_path g) as [|p0 p] eqn:E; [congruence|].
  destruct f, s; unfold finish; try destruct c; cbn [scene scene1 x_path x_text set_fill set_stroke x_fill x_stroke]; rewrite ?E, ?T;
    cbn [scene scene1 x_path x_text set_fill set_stroke x_fill x_stroke app]; rewrite ?E, ?T;
    (eexists; split; [|reflexivity]; split; [reflexivity|exact T]).
Qed.
(** what a shape shows (a path, unless it has no colours) *)
Definition shape_mark (path : list (@seg NUM)) (f s : option rgb) (close : bool) : list mark :=
  match f, s with None, None => [] | _, _ => [MPath path f s (match s with Some _ => close | None => false end)] end.
Lemma curves_path x y a1 a2 a3 a4 a5 a6 b1 b2 b3 b4 b5 b6 c1 c2 c3 c4 c5 c6 d1 d2 d3 d4 d5 d6 g : at_page g -> exists g1, x_text g1 = false /\ x_path g1 = [SMove x y; SCurve a1 a2 a3 a4 a5 a6; SCurve b1 b2 b3 b4 b5 b6; SCurve c1 c2 c3 c4 c5 c6; SCurve d1 d2 d3 d4 d5 d6]
  /\ forall r, scene g ([Om x y; Oc a1 a2 a3 a4 a5 a6; Oc b1 b2 b3 b4 b5 b6; Oc c1 c2 c3 c4 c5 c6; Oc d1 d2 d3 d4 d5 d6] ++ r) = scene g1 r.
Proof.
  intros [G1 G2]. exists (set_path g [SMove x y; SCurve a1 a2 a3 a4 a5 a6; SCurve b1 b2 b3 b4 b5 b6; SCurve c1 c2 c3 c4 c5 c6; SCurve d1 d2 d3 d4 d5 d6]). split; [exact G2|]. split; [reflexivity|]. intros r.
  destruct g; cbn in G1, G2; subst; cbn. destruct (scene _ r) as [[]|]; reflexivity.
Qed.
Ltac conc := intros g [G1 G2]; eexists (set_path g _); split; [exact G2|]; split; [reflexivity|]; intros r;
  destruct g; cbn in G1, G2; subst; cbn; destruct (scene _ r) as [[]|]; reflexivity.
Lemma drawing_alone d base ops : draw_ops d base = Ok ops -> exists ms, shows_alone ops ms.
Proof.
  assert (FIN : forall build path f s c, (forall g, at_page g -> exists g1, x_text g1 = false /\ x_path g1 = path /\ forall r, scene g (build ++ r) = scene g1 r) ->
     path <> [] -> shows_alone (build ++ finish f s c) (shape_mark path f s c)).
  { intros build path f s c H NE g G. destruct (H g G) as (g1 & T & P & E). rewrite E.
    destruct (finish_alone f s c g1 T) as (g' & A & B); [congruence|]. exists g'. split; [exact A|]. rewrite B, P. reflexivity. }
  destruct d; cbn [draw_ops]; intros E; try (apply Ok_inj in E; subst ops).
  - eexists. apply (FIN [Om (px a) (py a); Ol (px b) (py b)] [SMove (px a) (py a); SLineTo (px b) (py b)]); [|discriminate]. conc.
  - eexists. apply (FIN [Ore (px o) (py o) w h] [SRect (px o) (py o) w h]); [|discriminate]. conc.
  - eexists. eapply FIN; [intros g G; apply curves_path; exact G|discriminate].
  - eexists. eapply FIN; [intros g G; apply curves_path; exact G|discriminate].
  - unfold polyline_ops in E. destruct pts as [|p r]; [apply Ok_inj in E; subst ops; exists []; intros g G; exists g; split; [exact G|reflexivity]|].
    destruct (first_point p) as [a|]; [|discriminate]. cbn [bind] in E.
    destruct (mapM other_point r) as [l|]; [|discriminate]. cbn [bind] in E. apply Ok_inj in E. subst ops.
    eexists. apply (FIN (Om (fst a) (snd a) :: map (fun q => Ol (fst q) (snd q)) l) (SMove (fst a) (snd a) :: map (fun q => SLineTo (fst q) (snd q)) l)); [|discriminate].
    intros g [G1 G2]. exists (set_path g (SMove (fst a) (snd a) :: map (fun q => SLineTo (fst q) (snd q)) l)).
    split; [exact G2|]. split; [reflexivity|]. intros rest. cbn [app scene scene1]. rewrite G1, G2.
    rewrite scene_lines; [|exact G2|discriminate]. cbn [set_path x_path app].
    destruct (scene _ rest) as [[]|]; reflexivity.
  - unfold text_ops in E. destruct (text_lines _ _); [|discriminate]. cbn [bind] in E. apply Ok_inj in E. subst ops. apply text_alone_some.
Qed.
End Proofs.
