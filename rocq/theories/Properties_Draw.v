(** * Properties C55, C57-C59, C70: drawings. *)
From Coq Require Import QArith Qcanon String Lqa.
From Verif Require Import Base Num Fonts State Style TextSpec StateProofs Words WordsSpec WordProofs
  Parse Render RenderSpec Show Common Draw DrawSpec Properties_Words.
Local Open Scope list_scope.
Open Scope nat_scope.

(** ** C57. What was asked for: the path, the colours, and closing when stroked. *)
Section C57.
Context {NUM : Num} {ENV : Env NUM}.
Definition paints_as (os : list op) (path : list seg) (fill stroke : option rgb) (close : bool) : Prop :=
  forall g, g_path g = [] -> exists g' p, paint g os = Some (g', [p])
    /\ g_path g' = [] /\ p_path p = path /\ p_fill p = fill /\ p_stroke p = stroke
    /\ (stroke <> None -> p_close p = close).
Lemma paint_app a b g : paint g (a ++ b) =
  match paint g a with
  | Some (g1, x) => match paint g1 b with Some (g2, y) => Some (g2, x ++ y) | None => None end
  | None => None
  end.
Proof.
  revert g; induction a as [|o a IH]; intros g; cbn [app paint].
  - destruct (paint g b) as [[g2 y]|]; reflexivity.
  - destruct (paint1 g o) as [[g1 x]|]; [|reflexivity]. rewrite IH.
    destruct (paint g1 a) as [[g2 y]|]; [|reflexivity].
    destruct (paint g2 b) as [[g3 z]|]; [|reflexivity]. rewrite app_assoc. reflexivity.
Qed.
Lemma finish_paints g fill stroke close : g_path g <> [] ->
  exists g' p, paint g (finish fill stroke close) = Some (g', [p])
    /\ g_path g' = [] /\ p_path p = g_path g /\ p_fill p = fill /\ p_stroke p = stroke
    /\ (stroke <> None -> p_close p = close).
Proof.
  intros N. destruct g as [gf gs path]. cbn [g_path] in *. destruct path as [|s path]; [congruence|].
  destruct fill as [f|], stroke as [s'|], close; cbn; eexists _, _;
    (split; [reflexivity|]); cbn; repeat split; congruence.
Qed.
Lemma path_then_finish os path fill stroke close :
  path <> [] ->
  (forall g, g_path g = [] -> paint g os = Some (mkG (g_fill g) (g_stroke g) path, [])) ->
  paints_as (os ++ finish fill stroke close) path fill stroke close.
Proof.
  intros N H g G. rewrite paint_app, (H g G).
  destruct (finish_paints (mkG (g_fill g) (g_stroke g) path) fill stroke close) as (g' & p & E & R); [exact N|].
  rewrite E. exists g', p. split; [reflexivity|exact R].
Qed.
Lemma lines_paint (l : list (num * num)) : forall g, g_path g <> [] ->
  paint g (map (fun q => Ol (fst q) (snd q)) l)
  = Some (mkG (g_fill g) (g_stroke g) (g_path g ++ map (fun q => SLineTo (fst q) (snd q)) l), []).
Proof.
  induction l as [|q l IH]; intros g N; cbn [map paint].
  - rewrite app_nil_r. destruct g; reflexivity.
  - unfold paint1. destruct g as [gf gs path]. cbn [g_path g_fill g_stroke] in *.
    destruct path as [|s path]; [congruence|]. rewrite IH by discriminate.
    cbn [g_path g_fill g_stroke app]. rewrite <- app_assoc. reflexivity.
Qed.
(** the path of an ellipse, by its parameters *)
Definition ellipse_segs (x y xm ym xe ye ox oy : num) : list seg :=
  [SMove x ym; SCurve x (nsub ym oy) (nsub xm ox) y xm y;
   SCurve (nadd xm ox) y xe (nsub ym oy) xe ym;
   SCurve xe (nadd ym oy) (nadd xm ox) ye xm ye;
   SCurve (nsub xm ox) ye x (nadd ym oy) x ym].
Lemma ellipse_path c w h fill stroke : exists path,
  path <> [] /\
  path = (let w2 := ndiv w (nZ 2) in let h2 := ndiv h (nZ 2) in
          let x := nsub (px c) w2 in let y := nsub (py c) h2 in
          ellipse_segs x y (nadd x w2) (nadd y h2) (nadd x w) (nadd y h) (nmul w2 kappa) (nmul h2 kappa))
  /\ paints_as (ellipse_ops c w h fill stroke) path fill stroke false.
Proof.
  eexists. split; [|split; [reflexivity|]]; [discriminate|].
  unfold ellipse_ops. apply path_then_finish; [discriminate|].
  intros [gf gs path] G. cbn in G. subst. reflexivity.
Qed.
End C57.

Theorem C57_line : forall (NUM : Num) (ENV : Env NUM) a b stroke base,
  exists os, draw_ops (DLine a b stroke) base = Ok os
    /\ paints_as os [SMove (px a) (py a); SLineTo (px b) (py b)] None stroke false.
Proof.
  intros NUM ENV a b stroke base. eexists. split; [reflexivity|].
  apply path_then_finish; [discriminate|]. intros [gf gs path] G. cbn in G. subst. reflexivity.
Qed.
Print Assumptions C57_line.
Theorem C57_rect : forall (NUM : Num) (ENV : Env NUM) o w h fill stroke base,
  exists os, draw_ops (DRect o w h fill stroke) base = Ok os
    /\ paints_as os [SRect (px o) (py o) w h] fill stroke false.
Proof.
  intros NUM ENV o w h fill stroke base. eexists. split; [reflexivity|].
  apply (path_then_finish [Ore (px o) (py o) w h]); [discriminate|].
  intros [gf gs path] G. cbn in G. subst. reflexivity.
Qed.
Print Assumptions C57_rect.
(** the points of a polyline, given as pairs *)
Theorem C57_polyline : forall (NUM : Num) (ENV : Env NUM) (pts : list (num * num)) close fill stroke base,
  exists os, draw_ops (DPolyline (map (fun p => PTup [fst p; snd p]) pts) close fill stroke) base = Ok os
    /\ match pts with
       | [] => os = []
       | p :: r => paints_as os (SMove (fst p) (snd p) :: map (fun q => SLineTo (fst q) (snd q)) r) fill stroke close
       end.
Proof.
  intros NUM ENV pts close fill stroke base. cbn [draw_ops]. destruct pts as [|p r]; cbn [map polyline_ops].
  - eexists. split; reflexivity.
  - cbn [first_point bind]. replace (mapM other_point _) with (Ok r).
    + cbn [bind]. eexists. split; [reflexivity|].
      match goal with |- paints_as (Om ?x ?y :: ?a ++ ?f) _ _ _ _ => change (Om x y :: a ++ f) with ((Om x y :: a) ++ f) end.
      apply path_then_finish; [discriminate|]. intros [gf gs path] G. cbn in G. subst.
      cbn [paint paint1 g_path g_fill g_stroke app]. rewrite lines_paint by discriminate. reflexivity.
    + induction r as [|[x y] r IH]; [reflexivity|]. cbn [map mapM other_point bind fst snd]. rewrite <- IH. reflexivity.
Qed.
Print Assumptions C57_polyline.
(** Ellipses and circles: one path of four curves (see C58 for the curve). *)
Theorem C57_ellipse : forall (NUM : Num) (ENV : Env NUM) c w h fill stroke base,
  exists os path, draw_ops (DEllipse c w h fill stroke) base = Ok os
    /\ paints_as os path fill stroke false.
Proof.
  intros NUM ENV c w h fill stroke base. destruct (ellipse_path c w h fill stroke) as (path & E & _ & P).
  exists (ellipse_ops c w h fill stroke), path. split; [reflexivity|exact P].
Qed.
Print Assumptions C57_ellipse.
Theorem C57_circle : forall (NUM : Num) (ENV : Env NUM) c r fill stroke base,
  draw_ops (DCircle c r fill stroke) base = draw_ops (DEllipse c (nmul r (nZ 2)) (nmul r (nZ 2)) fill stroke) base.
Proof. reflexivity. Qed.
Print Assumptions C57_circle.
(** a text drawing is made as given, unless justified: that is refused *)
Theorem C55_constructor : forall (NUM : Num) (ENV : Env NUM) (l : xy) content st a,
  match text_new (PXY l) content st a with
  | Ok d => a <> AJustify /\ d = DText l content st a
  | Err e => a = AJustify /\ e = ENotImpl
  end.
Proof. intros NUM ENV l content st []; cbn; (split; [discriminate || reflexivity|reflexivity]). Qed.
Print Assumptions C55_constructor.
(** the colours given to the constructors reach the drawing *)
Theorem C57_constructors : forall (NUM : Num) (ENV : Env NUM) (UNI : Uni) a b o w h r l close (f s : rgb),
  line_new (PXY a) (PXY b) (CSome (CRGB s)) = Ok (DLine a b (Some s))
  /\ line_new (PXY a) (PXY b) CNone = Ok (DLine a b None)
  /\ rect_new (PXY o) w h (CSome (CRGB f)) (CSome (CRGB s)) = Ok (DRect o w h (Some f) (Some s))
  /\ ellipse_new (PXY o) w h (CSome (CRGB f)) (CSome (CRGB s)) = Ok (DEllipse o w h (Some f) (Some s))
  /\ circle_new (PXY o) r (CSome (CRGB f)) (CSome (CRGB s)) = Ok (DCircle o r (Some f) (Some s))
  /\ polyline_new l close (CSome (CRGB f)) (CSome (CRGB s)) = Ok (DPolyline l close (Some f) (Some s))
  /\ polyline_new l close CNone CNone = Ok (DPolyline l close None None).
Proof. intros. repeat split. Qed.
Print Assumptions C57_constructors.
Example C57_example : forall (NUM : Num) (f s : rgb) g, g_path g = [] ->
  option_map (fun x => map (fun p => (p_fill p, p_stroke p, p_close p)) (snd x))
    (paint g (Ore n0 n0 n1 n1 :: finish (Some f) None true ++ [Om n0 n0; Ol n1 n1] ++ finish None (Some s) true))
  = Some [(Some f, None, false); (None, Some s, true)].
Proof. intros NUM f s [gf gs p] G. cbn in G. subst. reflexivity. Qed.

(** ** C59. The points of a polyline as [XY] or as pairs. *)
Definition as_pair {NUM : Num} (p : xyarg) : xyarg :=
  match p with PXY q => PTup [px q; py q] | _ => p end.
Theorem C59_polyline_points_partial : forall (NUM : Num) (ENV : Env NUM) p r close fill stroke base,
  match p with PXY _ => False | _ => True end ->
  draw_ops (DPolyline (p :: r) close fill stroke) base
  = draw_ops (DPolyline (map as_pair (p :: r)) close fill stroke) base.
Proof.
  intros NUM ENV p r close fill stroke base H. cbn [draw_ops map polyline_ops].
  replace (as_pair p) with p by (destruct p; [contradiction|reflexivity|reflexivity]).
  replace (mapM other_point (map as_pair r)) with (mapM other_point r); [reflexivity|].
  induction r as [|q r IH]; [reflexivity|]. cbn [map mapM]. rewrite IH. destruct q; reflexivity.
Qed.
Print Assumptions C59_polyline_points_partial.
(** an [XY] as the first point is refused although the pair is accepted *)
Theorem C59_polyline_points_refuted : forall (NUM : Num) (ENV : Env NUM) q r close fill stroke base,
  draw_ops (DPolyline (PXY q :: r) close fill stroke) base = Err EType.
Proof. reflexivity. Qed.
Print Assumptions C59_polyline_points_refuted.
Theorem C59_polyline_points_accepted : forall (NUM : Num) (ENV : Env NUM) (q : xy) (r : list xy) close fill stroke base,
  exists os, draw_ops (DPolyline (PTup [px q; py q] :: map PXY r) close fill stroke) base = Ok os.
Proof.
  intros NUM ENV q r close fill stroke base. cbn [draw_ops polyline_ops first_point bind].
  replace (mapM other_point (map PXY r)) with (Ok (map (fun q => (px q, py q)) r)); [eexists; reflexivity|].
  induction r as [|p r IH]; [reflexivity|]. cbn [map mapM other_point bind]. rewrite <- IH. reflexivity.
Qed.
Print Assumptions C59_polyline_points_accepted.

(** ** C58. Ellipses. *)
Section C58.
Open Scope Qc_scope.
Definition two : Qc := Q2Qc 2.
Lemma half_twice (w : Qc) : w / two + w / two = w.
Proof. rewrite Qcdiv_def. replace (w * / two + w * / two) with (w * (/ two + / two)) by ring.
  replace (/ two + / two) with 1; [ring|]. apply Qc_is_canon. vm_compute. reflexivity. Qed.
Lemma half_nonneg (w : Qc) : 0 <= w -> 0 <= w / two.
Proof.
  intros H. pose proof (half_twice w) as E. set (x := w / two) in *. clearbody x.
  assert (T : (this x + this x == this w)%Q) by (rewrite <- this_plus, E; reflexivity).
  unfold Qcle in *. change (this 0) with 0%Q in *. lra.
Qed.
(** A Bezier value lies between any bounds of its control values. *)
Lemma bez_bounds lo hi p0 p1 p2 p3 t : 0 <= t -> t <= 1 ->
  lo <= p0 -> lo <= p1 -> lo <= p2 -> lo <= p3 -> p0 <= hi -> p1 <= hi -> p2 <= hi -> p3 <= hi ->
  lo <= bez p0 p1 p2 p3 t /\ bez p0 p1 p2 p3 t <= hi.
Proof.
  intros T0 T1 L0 L1 L2 L3 H0 H1 H2 H3. unfold bez, Qcle in *.
  qc_norm. change (this 0) with 0%Q in *. change (this 1) with 1%Q in *.
  set (a := this p0) in *. set (b := this p1) in *. set (c := this p2) in *. set (d := this p3) in *.
  set (u := this t) in *. set (l := this lo) in *. set (h := this hi) in *. clearbody a b c d u l h.
  assert (U : (0 <= 1 - u)%Q) by lra.
  assert (B0 : (0 <= (1 - u) * (1 - u) * (1 - u))%Q) by (repeat apply Qmult_le_0_compat; assumption).
  assert (B1 : (0 <= 3 * (1 - u) * (1 - u) * u)%Q) by (repeat apply Qmult_le_0_compat; assumption || discriminate).
  assert (B2 : (0 <= 3 * (1 - u) * u * u)%Q) by (repeat apply Qmult_le_0_compat; assumption || discriminate).
  assert (B3 : (0 <= u * u * u)%Q) by (repeat apply Qmult_le_0_compat; assumption).
  assert (S : ((1 - u) * (1 - u) * (1 - u) + 3 * (1 - u) * (1 - u) * u + 3 * (1 - u) * u * u + u * u * u == 1)%Q) by ring.
  set (w0 := ((1 - u) * (1 - u) * (1 - u))%Q) in *. set (w1 := (3 * (1 - u) * (1 - u) * u)%Q) in *.
  set (w2 := (3 * (1 - u) * u * u)%Q) in *. set (w3 := (u * u * u)%Q) in *.
  assert (M : forall w x y, (0 <= w)%Q -> (x <= y)%Q -> (w * x <= w * y)%Q).
  { intros w x y Hw Hx. rewrite !(Qmult_comm w). apply Qmult_le_compat_r; assumption. }
  pose proof (M _ _ _ B0 L0). pose proof (M _ _ _ B1 L1). pose proof (M _ _ _ B2 L2). pose proof (M _ _ _ B3 L3).
  pose proof (M _ _ _ B0 H0). pose proof (M _ _ _ B1 H1). pose proof (M _ _ _ B2 H2). pose proof (M _ _ _ B3 H3).
  assert (EL : (l == w0 * l + w1 * l + w2 * l + w3 * l)%Q) by (rewrite <- !Qmult_plus_distr_l, S; ring).
  assert (EH : (h == w0 * h + w1 * h + w2 * h + w3 * h)%Q) by (rewrite <- !Qmult_plus_distr_l, S; ring).
  split; lra.
Qed.

(** The four arcs of an ellipse with centre (cx, cy), width w and height h. *)
Lemma ellipse_arcs (c : @xy QcNum) (w h : Qc) :
  let a := w / two in let b := h / two in let k := @kappa QcNum in
  let cx := px c in let cy := py c in
  arcs_of (let w2 := ndiv w (nZ 2) in let h2 := ndiv h (nZ 2) in
           let x := nsub (px c) w2 in let y := nsub (py c) h2 in
           ellipse_segs x y (nadd x w2) (nadd y h2) (nadd x w) (nadd y h) (nmul w2 kappa) (nmul h2 kappa))
  = Some [mkArc (cx - a, cy) (cx - a, cy - b * k) (cx - a * k, cy - b) (cx, cy - b);
          mkArc (cx, cy - b) (cx + a * k, cy - b) (cx + a, cy - b * k) (cx + a, cy);
          mkArc (cx + a, cy) (cx + a, cy + b * k) (cx + a * k, cy + b) (cx, cy + b);
          mkArc (cx, cy + b) (cx - a * k, cy + b) (cx - a, cy + b * k) (cx - a, cy)].
Proof.
  cbv zeta. unfold ellipse_segs. cbn [arcs_of arcs_from]. cbn [num QcNum nadd nsub nmul ndiv].
  change (@nZ QcNum 2) with two.
  set (a := w / two). set (b := h / two). set (k := @kappa QcNum).
  assert (E1 : px c - a + a = px c) by ring.
  assert (E2 : py c - b + b = py c) by ring.
  assert (E3 : px c - a + w = px c + a).
  { rewrite <- (half_twice w). fold a. ring. }
  assert (E4 : py c - b + h = py c + b).
  { rewrite <- (half_twice h). fold b. ring. }
  rewrite E1, E2, E3, E4. reflexivity.
Qed.
Lemma kappa_bounds : 0 <= @kappa QcNum /\ @kappa QcNum <= 1.
Proof. split; unfold Qcle; vm_compute; discriminate. Qed.

(** The ellipse is a closed curve of four arcs through the midpoints of the sides of
    its box, and lies in the box. *)
Theorem C58_ellipse_in_box : forall (ENV : Env QcNum) (c : @xy QcNum) (w h : Qc) fill stroke base,
  0 <= w -> 0 <= h ->
  let cx := px c in let cy := py c in
  let x0 := cx - w / two in let x1 := cx + w / two in
  let y0 := cy - h / two in let y1 := cy + h / two in
  exists os path r1 r2 r3 r4,
    draw_ops (DEllipse c w h fill stroke) base = Ok os /\ paints_as os path fill stroke false
    /\ arcs_of path = Some [r1; r2; r3; r4]
    /\ a0 r1 = (x0, cy) /\ a3 r1 = (cx, y0) /\ a0 r2 = (cx, y0) /\ a3 r2 = (x1, cy)
    /\ a0 r3 = (x1, cy) /\ a3 r3 = (cx, y1) /\ a0 r4 = (cx, y1) /\ a3 r4 = a0 r1
    /\ (forall r t, In r [r1; r2; r3; r4] -> 0 <= t -> t <= 1 -> in_box x0 y0 x1 y1 (arc_at r t)).
Proof.
  intros ENV c w h fill stroke base W H cx cy x0 x1 y0 y1.
  destruct (@ellipse_path QcNum c w h fill stroke) as (path & _ & EP & PA).
  pose proof (ellipse_arcs c w h) as EA. cbv zeta in EA, EP. rewrite <- EP in EA.
  eexists (ellipse_ops c w h fill stroke), path, _, _, _, _.
  split; [reflexivity|]. split; [exact PA|]. split; [exact EA|].
  do 8 (split; [reflexivity|]).
  apply half_nonneg in W. apply half_nonneg in H. subst x0 x1 y0 y1 cx cy.
  set (a := w / two) in *. set (b := h / two) in *. destruct kappa_bounds as [K0 K1].
  set (k := @kappa QcNum) in *. set (cx := px c) in *. set (cy := py c) in *.
  clearbody a b k cx cy.
  assert (M : forall z : Qc, 0 <= z -> 0 <= z * k /\ z * k <= z).
  { intros z Z. split.
    - apply (Qcmult_le_compat_r 0 z k) in Z; [|exact K0]. rewrite Qcmult_0_l in Z. exact Z.
    - apply (Qcmult_le_compat_r k 1 z) in K1; [|exact Z]. rewrite Qcmult_1_l, Qcmult_comm in K1. exact K1. }
  destruct (M a W) as [A0 A1], (M b H) as [B0 B1]. set (ak := a * k) in *. set (bk := b * k) in *.
  clearbody ak bk. clear M K0 K1 k EA PA EP.
  intros r t I T0 T1. unfold in_box, arc_at. cbn [fst snd].
  assert (Z : (this 0 == 0)%Q) by reflexivity.
  cbn [In] in I. destruct I as [<-|[<-|[<-|[<-|[]]]]]; cbn [DrawSpec.a0 DrawSpec.a1 a2 a3 fst snd];
    match goal with |- _ <= bez ?p0 ?p1 ?p2 ?p3 t /\ _ /\ _ <= bez ?q0 ?q1 ?q2 ?q3 t /\ _ =>
      destruct (bez_bounds (cx - a) (cx + a) p0 p1 p2 p3 t T0 T1) as [R1 R2]; [clear T0 T1; qc..|];
      destruct (bez_bounds (cy - b) (cy + b) q0 q1 q2 q3 t T0 T1) as [R3 R4]; [clear T0 T1 R1 R2; qc..|]
    end; repeat split; assumption.
Qed.
Print Assumptions C58_ellipse_in_box.

(** The curve is within 0.03% of the true ellipse: with semi-axes a and b, every
    point (cx + a u, cy + b v) of it has 1 <= u^2 + v^2 <= 1.0003^2. *)
Lemma quarter_bounds t : 0 <= t -> t <= 1 ->
  let u := bez 1 1 (@kappa QcNum) 0 t in let v := bez 0 (@kappa QcNum) 1 1 t in
  1 <= u * u + v * v /\ u * u + v * v <= Q2Qc (10003 # 10000) * Q2Qc (10003 # 10000).
Proof.
  intros T0 T1. cbv zeta. unfold bez, Qcle in *. qc_norm.
  change (this 0) with 0%Q in *. change (this 1) with 1%Q in *.
  replace (this (@kappa QcNum)) with (Qred (5522848 # 10000000)) by reflexivity. rewrite Qred_correct.
  set (z := this t) in *. clearbody z.
  set (s := (z * (1 - z))%Q).
  assert (S0 : (0 <= s)%Q) by (apply Qmult_le_0_compat; lra).
  assert (SQ : forall q : Q, (0 <= q * q)%Q) by (intros q; nra).
  assert (S1 : (s <= 1 # 4)%Q) by (unfold s; specialize (SQ (z - (1 # 2))%Q); lra).
  match goal with |- (_ <= ?e)%Q /\ _ => assert (E : (e == 1 + s * s * ((9 * (5522848 # 10000000) * (5522848 # 10000000) + 6 * (5522848 # 10000000) - 6)
     - (18 * (5522848 # 10000000) * (5522848 # 10000000) - 24 * (5522848 # 10000000) + 8) * s))%Q) by (unfold s; ring) end.
  rewrite !E. clear E. clearbody s. clear T0 T1 z t.
  assert (SS : (0 <= s * s)%Q) by apply SQ.
  assert (S2 : (s * s <= 1 # 16)%Q) by nra.
  split.
  - match goal with |- (1 <= 1 + s * s * ?f)%Q => assert (F : (0 <= f)%Q) by lra; pose proof (Qmult_le_0_compat _ _ SS F); lra end.
  - assert (P : (0 <= (s - (1 # 6)) * (s - (1 # 6)) * (s + (1 # 12)))%Q).
    { apply Qmult_le_0_compat; [apply SQ|lra]. }
    assert (P2 : ((s - (1 # 6)) * (s - (1 # 6)) * (s + (1 # 12)) == s * s * s - (1 # 4) * (s * s) + (1 # 432))%Q) by ring.
    rewrite P2 in P. set (q := (s * s)%Q) in *.
    assert (R : (q * s == s * s * s)%Q) by (unfold q; ring).
    set (c3 := (s * s * s)%Q) in *.
    match goal with |- (1 + q * (?x - ?y * s) <= _)%Q => assert (G : (q * (x - y * s) == x * q - y * (q * s))%Q) by ring; rewrite G, R end.
    change (q * s)%Q with c3 in *. clearbody q c3. lra.
Qed.
Theorem C58_ellipse_accurate : forall (ENV : Env QcNum) (c : @xy QcNum) (w h : Qc) fill stroke base,
  exists os path arcs,
    draw_ops (DEllipse c w h fill stroke) base = Ok os /\ paints_as os path fill stroke false
    /\ arcs_of path = Some arcs
    /\ forall r t, In r arcs -> 0 <= t -> t <= 1 ->
         exists u v : Qc, arc_at r t = (px c + w / two * u, py c + h / two * v)
           /\ 1 <= u * u + v * v /\ u * u + v * v <= Q2Qc (10003 # 10000) * Q2Qc (10003 # 10000).
Proof.
  intros ENV c w h fill stroke base.
  destruct (@ellipse_path QcNum c w h fill stroke) as (path & _ & EP & PA).
  pose proof (ellipse_arcs c w h) as EA. cbv zeta in EA, EP. rewrite <- EP in EA.
  eexists (ellipse_ops c w h fill stroke), path, _.
  split; [reflexivity|]. split; [exact PA|]. split; [exact EA|]. clear EA PA EP.
  intros r t I T0 T1. pose proof (quarter_bounds t T0 T1) as Q. cbv zeta in Q.
  set (u := bez 1 1 (@kappa QcNum) 0 t) in *. set (v := bez 0 (@kappa QcNum) 1 1 t) in *.
  assert (N : forall x y : Qc, x * x + y * y = y * y + x * x) by (intros; ring).
  assert (N1 : forall x : Qc, - x * - x = x * x) by (intros; ring).
  assert (THREE : Q2Qc 3 = 1 + 1 + 1) by (apply Qc_is_canon; reflexivity).
  cbn [In] in I. destruct I as [<-|[<-|[<-|[<-|[]]]]].
  - exists (- u), (- v). split; [|rewrite !N1; exact Q].
    unfold arc_at, u, v, bez. cbn [DrawSpec.a0 DrawSpec.a1 a2 a3 fst snd]. rewrite THREE. f_equal; ring.
  - exists v, (- u). split; [|rewrite !N1, N; exact Q].
    unfold arc_at, u, v, bez. cbn [DrawSpec.a0 DrawSpec.a1 a2 a3 fst snd]. rewrite THREE. f_equal; ring.
  - exists u, v. split; [|exact Q].
    unfold arc_at, u, v, bez. cbn [DrawSpec.a0 DrawSpec.a1 a2 a3 fst snd]. rewrite THREE. f_equal; ring.
  - exists (- v), u. split; [|rewrite !N1, N; exact Q].
    unfold arc_at, u, v, bez. cbn [DrawSpec.a0 DrawSpec.a1 a2 a3 fst snd]. rewrite THREE. f_equal; ring.
Qed.
Print Assumptions C58_ellipse_accurate.
End C58.
Example C58_example : exists r1 r2 r3 r4,
  @arcs_of [SMove (nZ 0) (nZ 5); SCurve (nZ 0) (nZ 2) (nZ 4) (nZ 0) (nZ 10) (nZ 0);
            SCurve (nZ 16) (nZ 0) (nZ 20) (nZ 2) (nZ 20) (nZ 5); SCurve (nZ 20) (nZ 8) (nZ 16) (nZ 10) (nZ 10) (nZ 10);
            SCurve (nZ 4) (nZ 10) (nZ 0) (nZ 8) (nZ 0) (nZ 5)] = Some [r1; r2; r3; r4]
  /\ map this [fst (arc_at r1 (Q2Qc (1 # 2))); snd (arc_at r1 (Q2Qc (1 # 2)))] = [(11 # 4)%Q; (11 # 8)%Q].
Proof. eexists _, _, _, _. split; [reflexivity|]. vm_compute. reflexivity. Qed.
