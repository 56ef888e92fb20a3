(** * SceneMoved: what is shown of a block moves with the block. *)
From Coq Require Import QArith Qcanon.
From Verif Require Import Base Num Fonts State Style Words Parse Render Common Draw DrawSpec Show TextBlock Layout LayoutProofs LayoutMoved SceneSpec SceneProofs.
From Coq Require Import Lia.
Local Open Scope list_scope.
Open Scope nat_scope.

Definition shift_seg (dx dy : Qc) (s : @seg QcNum) : @seg QcNum :=
  match s with
  | SMove x y => @SMove QcNum (x + dx)%Qc (y + dy)%Qc
  | SRect x y w h => @SRect QcNum (x + dx)%Qc (y + dy)%Qc w h
  | SLineTo x y => @SLineTo QcNum (x + dx)%Qc (y + dy)%Qc
  | SCurve a b c d e f => @SCurve QcNum (a + dx)%Qc (b + dy)%Qc (c + dx)%Qc (d + dy)%Qc (e + dx)%Qc (f + dy)%Qc
  end.
(** the same mark elsewhere *)
Definition shift_mark (dx dy : Qc) (m : @mark QcNum) : @mark QcNum :=
  match m with
  | MPath path f s c => MPath (map (shift_seg dx dy) path) f s c
  | MText x y f z c items => @MText QcNum (x + dx)%Qc (y + dy)%Qc f z c items
  end.
Section Moved.
Context {ENV : Env QcNum}.
Implicit Types (g h : @gfx QcNum).
Lemma sw (a d e : Qc) : (a + d + e)%Qc = (a + e + d)%Qc. Proof. ring. Qed.
Lemma sw0 (a d : Qc) : (0 + (a + d))%Qc = (0 + a + d)%Qc. Proof. ring. Qed.
Definition veq (dx dy : Qc) g h : Prop :=
  x_font g = x_font h /\ x_size g = x_size h /\ x_fill g = x_fill h /\ x_lead g = x_lead h
  /\ x_x h = (x_x g + dx)%Qc /\ x_y h = (x_y g + dy)%Qc /\ x_path g = [] /\ x_path h = [] /\ x_text g = true /\ x_text h = true.
Lemma veq_run dx dy os : Forall plain_text_op os -> forall g h, veq dx dy g h ->
  exists g' h' ms, scene g os = Some (g', ms) /\ scene h os = Some (h', map (shift_mark dx dy) ms) /\ veq dx dy g' h'.
Proof.
  induction 1 as [|o os P _ IH]; intros g h T; cbn [scene].
  - exists g, h, []. auto.
  - assert (X : exists g1 h1 m, scene1 g o = Some (g1, m) /\ scene1 h o = Some (h1, map (shift_mark dx dy) m) /\ veq dx dy g1 h1).
    { destruct T as (A & B & C & D & E & F & G & H & I & J).
      destruct o; cbn [plain_text_op] in P; try contradiction; cbn [scene1]; rewrite ?I, ?J;
        try (do 3 eexists; split; [reflexivity|]; split; [reflexivity|];
             unfold veq; cbn [move set_lead set_font set_fill x_font x_size x_fill x_stroke x_lead x_x x_y x_path x_text nadd QcNum]; rewrite ?A, ?B, ?C, ?D, ?E, ?F; repeat split; first [assumption|apply sw]).
      destruct items; (do 3 eexists; split; [reflexivity|]; split; [rewrite ?A, ?B, ?C, ?E, ?F; reflexivity|]);
        unfold veq; repeat split; assumption. }
    destruct X as (g1 & h1 & m & X & Y & T1). rewrite X, Y.
    destruct (IH g1 h1 T1) as (g2 & h2 & m2 & X2 & Y2 & T2). rewrite X2, Y2.
    exists g2, h2, (m ++ m2). rewrite map_app. auto.
Qed.
Lemma shape_moves dx dy s pos w g : at_page g -> exists g' h' ms,
  scene g (sh_ops s pos w) = Some (g', ms) /\ scene g (sh_ops (shift_shape dx dy s) (shift_xy dx dy pos) w) = Some (h', map (shift_mark dx dy) ms).
Proof.
  intros [G1 G2]. destruct s as [ls ld a h|p q c h]; cbn [sh_ops shift_shape].
  - unfold render_text.
    assert (PL : Forall plain_text_op (match text_pre_state ls with Some s => state_ops s | None => [] end ++ render_lines a ls ld w)).
    { apply Forall_app. split; [destruct (text_pre_state ls); repeat constructor|].
      apply lines_all; try (intros; exact Logic.I). apply Forall_forall. intros l _. apply plain_tline. }
    rewrite !(app_assoc (match text_pre_state ls with Some _ => _ | None => _ end)).
    set (os := match text_pre_state ls with Some s => state_ops s | None => [] end ++ render_lines a ls ld w) in *.
    assert (T : veq dx dy (move (enter g) (px pos) (py pos)) (move (enter g) (px (shift_xy dx dy pos)) (py (shift_xy dx dy pos)))).
    { unfold veq. cbn [move enter shift_xy px py x_font x_size x_fill x_lead x_x x_y x_path x_text nadd QcNum]. repeat split; auto; apply sw0. }
    destruct (veq_run dx dy os PL _ _ T) as (g1 & h1 & ms & E1 & E2 & V). destruct V as (_&_&_&_&_&_&_&_&I&J).
    exists (leave g1), (leave h1), ms.
    split; cbn [scene scene1]; rewrite G1, G2; change (x_text (enter g)) with true; cbv match; rewrite scene_app; [rewrite E1|rewrite E2];
      cbn [scene scene1]; rewrite ?I, ?J; rewrite ?app_nil_r; reflexivity.
  - destruct g; cbn in G1, G2; subst. cbn. do 3 eexists. split; [reflexivity|]. reflexivity.
Qed.
(** the mark of a block is the mark of the block at its first place, moved *)
Lemma shape_moved_alone dx dy s pos w ms : shows_alone (sh_ops s pos w) ms ->
  shows_alone (sh_ops (shift_shape dx dy s) (shift_xy dx dy pos) w) (map (shift_mark dx dy) ms).
Proof.
  intros A. destruct (shaped_alone (shift_shape dx dy s) (shift_xy dx dy pos) w) as (ms' & B).
  replace (map (shift_mark dx dy) ms) with ms'; [exact B|].
  assert (S0 : at_page (@x_start QcNum)) by (split; reflexivity).
  destruct (A _ S0) as (g1 & _ & E1). destruct (B _ S0) as (g2 & _ & E2).
  destruct (shape_moves dx dy s pos w _ S0) as (g' & h' & m & F1 & F2). rewrite E1 in F1. rewrite E2 in F2. injection F1 as _ <-. injection F2 as _ ->. reflexivity.
Qed.
Lemma blocks_moved dx dy w : forall bs ms, shows_alone (flat_map (fun p => sh_ops (snd p) (fst p) w) bs) ms ->
  shows_alone (flat_map (fun p => sh_ops (snd p) (fst p) w) (shift_blocks dx dy bs)) (map (shift_mark dx dy) ms).
Proof.
  assert (UNI : forall ops m m', shows_alone ops m -> shows_alone ops m' -> m = m').
  { intros ops m m' A B. assert (S0 : at_page (@x_start QcNum)) by (split; reflexivity).
    destruct (A _ S0) as (? & _ & E). destruct (B _ S0) as (? & _ & F). congruence. }
  assert (G : forall bs, exists ms, shows_alone (flat_map (fun p => sh_ops (snd p) (fst p) w) bs) ms
     /\ shows_alone (flat_map (fun p => sh_ops (snd p) (fst p) w) (shift_blocks dx dy bs)) (map (shift_mark dx dy) ms)).
  { induction bs as [|[pos s] bs (ms & I1 & I2)].
    - exists []. split; intros g G; exists g; (split; [exact G|reflexivity]).
    - destruct (shaped_alone s pos w) as (m & A). exists (m ++ ms). cbn [shift_blocks flat_map map fst snd]. split; [apply alone_app; assumption|].
      rewrite map_app. apply alone_app; [apply shape_moved_alone; exact A|exact I2]. }
  intros bs ms A. destruct (G bs) as (m & B & C). rewrite (UNI _ _ _ A B). exact C.
Qed.
(** what a column shows, is shown by a column with the same inside in its own place *)
Lemma column_moved c c' ms : same_inside c c' -> shows_alone (cf_ops c) ms ->
  shows_alone (cf_ops c') (map (shift_mark (px (c_origin (cf_box c')) - px (c_origin (cf_box c)))%Qc (py (c_origin (cf_box c')) - py (c_origin (cf_box c)))%Qc) ms).
Proof. intros (W & _ & _ & B) A. unfold cf_ops. rewrite B, W. apply blocks_moved. exact A. Qed.
Lemma column_shows (c : @colfill QcNum) : exists ms, shows_alone (cf_ops c) ms.
Proof.
  unfold cf_ops. induction (cf_blocks c) as [|[pos s] bs (ms & I)]; [exists []; intros g G; exists g; split; [exact G|reflexivity]|].
  destruct (shaped_alone s pos (c_width (cf_box c))) as (m & A). exists (m ++ ms). cbn [flat_map fst snd]. apply alone_app; assumption.
Qed.
End Moved.
