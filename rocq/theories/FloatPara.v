(** * FloatPara: the first-fit lines of a paragraph, measured in doubles. *)
From Coq Require Import ZArith Bool Reals.
From Flocq Require Import Core IEEE754.BinarySingleNaN.
From Verif Require Import Base Num Float64 FloatProofs NumInstances RoundErr Fonts State TextSpec StateProofs
  Words WordsSpec WordProofs WordOps Parse Firstfit FirstfitProofs LineSpec Common FontsUsed Layout LayoutTotal Properties_Firstfit FloatLines FloatWidths FloatText.
From Coq Require Import Lra Lia.
Open Scope R_scope.
Section Para.
Context (pow : b64 -> nat -> b64) {ENV : Env (Float64 pow)}.
#[local] Hint Extern 0 Num => exact (Float64 pow) : typeclass_instances.
Context (M Smin Smax : R) (g k : Z) (n : nat).
Hypothesis SG : sane g.
Hypothesis SK : sane k.
Hypothesis WID : forall f c, fin (charwidth f c) /\ Rabs (val (charwidth f c)) <= M.
Hypothesis KER : forall f a b, fin (charkern f a b) /\ Rabs (val (charkern f a b)) <= M.
Hypothesis M0 : 2004 * ulp2 g <= M.
Hypothesis N1 : (1 <= n)%nat.
Hypothesis CG : INR (2 * n + 8) * (M + ulp2 g) <= cap g.
Hypothesis CK1 : 4 * (M * Smax) <= cap k.
Hypothesis CK2 : INR (12 * n + 60) * (M * Smax / 1000 + delta Smax g k) <= cap k.
Hypothesis SM0 : 0 < Smin.
Notation delta := (delta Smax g k).
Notation near := (near pow M Smax g k).
Notation okst := (okst pow Smax).
Notation gslug := (gslug pow M Smax g k n).
Notation gbox := (gbox pow M Smax g k n).
Notation gspace := (gspace pow M Smax).
Definition sized (f : font) (z : @num (Float64 pow)) : Prop := fin z /\ Smin <= val z <= Smax.
Lemma st_ok st : st_in sized st -> okst st.
Proof. intros (A & B & C). split; [exact A|]. lra. Qed.
Definition pgood (w : wordlike) : Prop := wl_good pow gbox gspace w.

Lemma fresh_slug_good s : slug_in sized s -> fresh_slug s -> (List.length (sl_txt s) <= n)%nat ->
  near (2 * List.length (sl_txt s) + 3) s /\ (List.length (sl_kern s) <= List.length (sl_txt s))%nat.
Proof.
  intros (A & _) (t & prev & E) L. apply st_ok in A. set (st := sl_state s) in *. clearbody st. subst s. cbn [slug_new sl_txt sl_kern] in *. split.
  - apply (new_near pow M Smax g k n SG SK WID KER M0 CG CK2 t st prev A L).
  - apply (font_kern_facts pow M WID KER (st_font st) t prev).
Qed.
Lemma near_good c s : near c s -> (c <= 2 * List.length (sl_txt s) + 7)%nat -> (List.length (sl_txt s) <= n)%nat -> gslug s.
Proof. intros N C L. split; [exact L|]. eapply (near_weak pow M Smax g k M0); [|exact N]. destruct (slug_has_init_kern s); lia. Qed.
Lemma segs_len_le l p : In p l -> (List.length (sl_txt (fst p)) <= segs_len l)%nat.
Proof. unfold segs_len. induction l as [|q l IH]; intros []; cbn; [subst; lia|]. specialize (IH H). unfold list_sum in IH. lia. Qed.
Lemma fresh_box_good b : box_in sized b -> fresh_box b -> (box_len b <= n)%nat -> gbox b.
Proof.
  intros A F L. split; [exact L|]. destruct b as [s|l st]; cbn [box_in fresh_box box_len] in *.
  - destruct (fresh_slug_good s A F L) as (N & _). eapply near_good; [exact N|lia|exact L].
  - destruct A as (A & O). split; [|apply st_ok, O]. apply Forall_forall. intros p I. assert (LP := segs_len_le l p I).
    rewrite Forall_forall in A, F. destruct (A p I) as (A1 & _). destruct (fresh_slug_good _ A1 (F p I) ltac:(lia)) as (N & _).
    eapply near_good; [exact N|lia|lia].
Qed.
Lemma zero_small : fin (@n0 (Float64 pow)) /\ Rabs (val (@n0 (Float64 pow))) <= 0.
Proof. destruct (zero_close pow) as (A & B). split; [exact A|]. rewrite Rminus_0_r in B. exact B. Qed.
Lemma new_space_kern st prev : fin (ts_kern (tspace_new st prev)) /\ Rabs (val (ts_kern (tspace_new st prev))) <= M.
Proof.
  cbn [tspace_new ts_kern]. destruct prev; [apply KER|]. destruct zero_small as (A & B). split; [exact A|].
  assert (P := M_pos M g M0). lra.
Qed.
Lemma new_space_good st prev : okst st -> gspace (tspace_new st prev, st).
Proof.
  intros O. destruct (new_space_kern st prev) as (A & B). assert (P := M_pos M g M0).
  repeat split; try apply O; auto. cbn [fst snd]. lra.
Qed.
Lemma fresh_good w : wl_in sized w -> fresh_wl w -> fresh_tail w -> Forall (fun b => (box_len b <= n)%nat) (wl_boxes w) -> pgood w.
Proof.
  intros A F T L. split.
  - assert (B := wl_boxes_in sized w A). unfold fresh_wl in F. rewrite Forall_forall in *. intros b I. apply fresh_box_good; auto.
  - induction w as [b|w|w IH c]; cbn [wl_end fresh_tail] in *; [exact Logic.I| |].
    + destruct (w_tail w) as [t|] eqn:E; cbn [option_map]; [|exact Logic.I]. destruct (T t E) as (prev & ->). apply new_space_good, st_ok, A.
    + apply IH; auto. apply A.
Qed.
(** ** the indented first word *)
Context (x : @num (Float64 pow)).
Hypothesis FX : fin x.
Hypothesis HX : 2000 * Rabs (val x) <= M * Smin.
Lemma HX' st : st_in sized st -> 2000 * Rabs (val x) <= M * val (st_size st).
Proof. intros (_ & A & _). assert (P := M_pos M g M0). eapply Rle_trans; [exact HX|]. apply Rmult_le_compat_l; lra. Qed.
Lemma indent_slug_good s s' : slug_in sized s -> fresh_slug s -> (List.length (sl_txt s) <= n)%nat -> slug_indent s x = Ok s' ->
  gslug s' /\ sl_txt s' = sl_txt s.
Proof.
  intros A F L E. destruct (fresh_slug_good s A F L) as (N & K).
  destruct (indent_near pow M Smax g k n SG SK WID M0 CG CK2 _ s x s' N L ltac:(lia) K FX (HX' _ (proj1 A)) E) as (I1 & I2 & I3).
  split; [|exact I3]. eapply near_good; [exact I1|rewrite I3; lia|rewrite I3; exact L].
Qed.
Lemma indent_box_good b b' : box_in sized b -> fresh_box b -> (box_len b <= n)%nat -> box_indent b x = Ok b' -> gbox b' /\ box_len b' = box_len b.
Proof.
  intros A F L. assert (G0 := fresh_box_good b A F L). destruct b as [s|l st]; cbn [box_in fresh_box box_len box_indent] in *.
  - intros E. apply rmap_inv in E as (s' & E & ->). destruct (indent_slug_good s s' A F L E) as (I1 & I2).
    cbn [box_len]. rewrite I2. split; [|reflexivity]. split; [cbn [box_len]; rewrite I2; exact L|exact I1].
  - destruct (ntruthy x).
    2:{ intros E. apply Ok_inj in E. subst b'. split; [exact G0|reflexivity]. }
    destruct l as [|[s c] l]; [intros E; apply Ok_inj in E; subst b'; split; [exact G0|reflexivity]|].
    intros E. apply rmap_inv in E as (s' & E & ->). destruct A as (A & O). assert (LP := segs_len_le ((s, c) :: l) (s, c) ltac:(left; reflexivity)). cbn [fst] in LP.
    destruct (indent_slug_good s s' (proj1 (Forall_inv A)) (Forall_inv F) ltac:(lia) E) as (I1 & I2).
    destruct G0 as (_ & G1 & G2).
    assert (SL : segs_len ((s', c) :: l) = segs_len ((s, c) :: l)) by (unfold segs_len; cbn [map fst]; rewrite I2; reflexivity).
    cbn [box_len]. split; [|exact SL]. split; [cbn [box_len]; rewrite SL; exact L|]. split; [|exact G2]. constructor; [exact I1|exact (Forall_inv_tail G1)].
Qed.
Lemma indent_space_good st prev t' : st_in sized st -> tspace_stretch (tspace_new st prev) x st = Ok t' -> gspace (t', st).
Proof.
  intros A. destruct (new_space_kern st prev) as (K1 & K2). set (t := tspace_new st prev) in *. assert (HS := HX' st A). assert (O := st_ok st A).
  unfold tspace_stretch, pdiv. destruct (neqb _ _); [discriminate|]. cbn [bind]. intros E. apply Ok_inj in E. subst t'.
  destruct O as (FS & O1 & O2). split; [exact (conj FS (conj O1 O2))|]. split; [reflexivity|]. split; [reflexivity|]. cbn [fst ts_kern].
  set (sz := st_size st) in *. destruct (n1000_val pow) as (F1 & V1). assert (U := ulp2_pos g). assert (P := M_pos M g M0).
  assert (C' : 8 * (M + ulp2 g) <= cap g).
  { eapply Rle_trans; [|exact CG]. replace 8 with (INR 8) by (cbn; lra). apply Rmult_le_compat_r; [lra|apply le_INR; lia]. }
  assert (QB : Rabs (val x / val sz) <= M / 2000).
  { unfold Rdiv at 1. rewrite Rabs_mult, Rabs_inv, (Rabs_right (val sz)) by lra. apply (Rmult_le_reg_r (val sz)); [lra|].
    rewrite Rmult_assoc, Rinv_l, Rmult_1_r by lra. lra. }
  assert (Q1 : close (bdiv x sz) (val x / val sz) (ulp2 g)) by (apply (div_near g); auto; lra).
  assert (Q2 : close (bmul (bdiv x sz) (@n1000 (Float64 pow))) (val x / val sz * val (@n1000 (Float64 pow))) (1001 * ulp2 g)).
  { eapply close_weak; [|apply (close_mul g _ _ _ _ SG Q1 F1)]; rewrite V1, (Rabs_right 1000) by lra; lra. }
  rewrite V1 in Q2. assert (Z : Rabs (val x / val sz * 1000) <= M / 2) by (rewrite Rabs_mult, (Rabs_right 1000) by lra; lra).
  assert (T := Rabs_triang (val (ts_kern t)) (val x / val sz * 1000)).
  assert (Q3 : close (badd (ts_kern t) (bmul (bdiv x sz) (@n1000 (Float64 pow)))) (val (ts_kern t) + val x / val sz * 1000) (0 + 1001 * ulp2 g + ulp2 g)).
  { apply (close_add g _ _ _ _ _ _ SG (exact_close _ K1) Q2). lra. }
  change (nadd (ts_kern t) (nmul (ndiv x sz) n1000)) with (badd (ts_kern t) (bmul (bdiv x sz) (@n1000 (Float64 pow)))).
  destruct Q3 as (F3 & Q3). split; [exact F3|].
  apply abs_out in Q3. apply abs_out in Z. apply abs_out in K2. apply abs_in; lra.
Qed.
Lemma indent_good w : forall w', wl_in sized w -> fresh_wl w -> fresh_tail w -> Forall (fun b => (box_len b <= n)%nat) (wl_boxes w) ->
  wl_indent w x = Ok w' -> pgood w' /\ List.length (wl_boxes w') = List.length (wl_boxes w).
Proof.
  induction w as [b|w|w IH c]; intros w' A F T L E; assert (G0 := fresh_good _ A F T L); cbn [wl_indent] in E.
  - apply rmap_inv in E as (b' & E & ->). destruct (indent_box_good b b' A (Forall_inv F) (Forall_inv L) E) as (I1 & _).
    split; [split; [constructor; [exact I1|constructor]|exact Logic.I]|reflexivity].
  - apply rmap_inv in E as (v & E & ->). unfold word_indent in E. destruct (ntruthy x) eqn:TX; [|apply Ok_inj in E; subst v; split; [exact G0|reflexivity]].
    destruct A as (A1 & A2). unfold fresh_wl in F. cbn [wl_boxes fresh_tail] in *. destruct (w_boxes w) as [|b r] eqn:B.
    + destruct (w_tail w) as [t|] eqn:ET; [|discriminate]. apply rmap_inv in E as (t' & E & ->).
      destruct (T t ET) as (prev & ->). apply indent_space_good in E; [|exact A2].
      split; [|reflexivity]. split; [constructor|exact E].
    + apply rmap_inv in E as (b' & E & ->). destruct (indent_box_good b b' (Forall_inv A1) (Forall_inv F) (Forall_inv L) E) as (I1 & _).
      split; [|reflexivity]. destruct G0 as (G1 & G2). cbn [wl_boxes wl_end] in *. rewrite B in G1.
      split; [constructor; [exact I1|exact (Forall_inv_tail G1)]|exact G2].
  - destruct (ntruthy x); [|apply Ok_inj in E; subst w'; split; [exact G0|reflexivity]].
    apply rmap_inv in E as (v & E & ->). destruct (IH v (proj1 A) F T L E) as (I1 & I2). split; [exact I1|exact I2].
Qed.
Definition frags (ws : list wordlike) : nat := list_sum (map (fun w => List.length (wl_boxes w) + 2)%nat ws).
Definition short (w : wordlike) : Prop := Forall (fun b => (box_len b <= n)%nat) (wl_boxes w).
Lemma para_good ps st cmd ws ex ws' : psg_in sized ps -> st_in sized st -> into_words ps st = Ok (cmd, ws, ex) -> indent_first ws x = Ok ws' ->
  Forall short ws -> Forall pgood ws' /\ frags ws' = frags ws /\ (ws <> [] -> ws' <> []).
Proof.
  intros P S E I L. destruct (into_words_in sized _ _ _ P S E) as (_ & A). assert (F := into_words_fresh _ _ _ _ _ E). assert (T := into_words_end _ _ _ _ _ E).
  clear E P S. assert (R : forall l, wls_in sized l -> Forall fresh_wl l -> Forall fresh_tail l -> Forall short l -> Forall pgood l).
  { clear -SG SK WID KER M0 N1 CG CK1 CK2 SM0. intros l A F T L. unfold wls_in in A. rewrite Forall_forall in *. intros w I. apply fresh_good; auto. apply L, I. }
  destruct ws as [|w r]; cbn [indent_first] in I; [apply Ok_inj in I; subst ws'; repeat split; auto|].
  apply bind_ok in I as (w' & W & I). apply Ok_inj in I. subst ws'. inversion A; inversion F; inversion T; inversion L; subst.
  destruct (indent_good w w') as (I1 & I2); auto. split; [constructor; auto|]. split; [unfold frags; cbn [map]; rewrite I2; reflexivity|discriminate].
Qed.
(** ** the lines *)
Notation e := (e_box Smax g k n).
Notation bx := (B_box M Smax n).
Notation true_line := (line_adv pow (box_true pow) (space_true pow)).
Lemma room_le ws : 0 < Smax -> room pow k e (fun _ => bx) (fun _ => bx) ws <= INR (frags ws) * (bx + d k e).
Proof.
  intros S0. destruct (facts M Smax g k M0 S0) as (D1 & D2).
  assert (BP : 0 <= bx) by (unfold B_box; apply Rmult_le_pos; [apply pos_INR|lra]).
  assert (EP : 0 <= e) by (unfold e_box; apply Rmult_le_pos; [apply pos_INR|lra]). assert (DP := d_pos k e EP).
  induction ws as [|w r IH]; [cbn; lra|].
  change (room pow k e (fun _ => bx) (fun _ => bx) (w :: r)) with ((wl_wt pow (fun _ => bx) (fun _ => bx) w + cost pow k e w) + room pow k e (fun _ => bx) (fun _ => bx) r).
  change (frags (w :: r)) with ((List.length (wl_boxes w) + 2) + frags r)%nat. rewrite plus_INR, Rmult_plus_distr_r. apply Rplus_le_compat; [|exact IH].
  unfold cost. rewrite Rmult_plus_distr_l. apply Rplus_le_compat_r.
  unfold wl_wt. rewrite plus_INR. replace (INR 2) with 2 by (cbn; lra).
  assert (X : Rsum (map (fun _ : box => bx) (wl_boxes w)) = INR (List.length (wl_boxes w)) * bx).
  { induction (wl_boxes w) as [|b l IL]; cbn [map Rsum List.length]; [cbn; lra|]. rewrite S_INR, IL. ring. }
  rewrite X. destruct (wl_end pow w); cbn [tail_wt]; lra.
Qed.
Lemma para_lines fuel ps st cmd ws ex ws' cols ae lead av cs :
  psg_in sized ps -> st_in sized st -> into_words ps st = Ok (cmd, ws, ex) -> indent_first ws x = Ok ws' -> Forall short ws -> ws <> [] ->
  (forall i, fin (fst (cols i)) /\ Rabs (val (fst (cols i))) + INR (frags ws) * (bx + d k e) <= cap k) ->
  ff_shape fuel ws' cols ae lead av false = Ok cs ->
  Forall (fun p : @num (Float64 pow) * line =>
    true_line (prune_last (l_words (snd p))) <= val (fst p) + INR (frags (l_words (snd p))) * d k e \/ one_fragment (l_words (snd p))) (placed cols cs).
Proof.
  intros P S E I L NE C SH. destruct (para_good _ _ _ _ _ _ P S E I L) as (G1 & G2 & G3).
  assert (S0 : 0 < Smax) by (destruct S as (_ & S1 & S2); lra). destruct (facts M Smax g k M0 S0) as (D1 & D2).
  assert (EP : 0 <= e) by (unfold e_box; apply Rmult_le_pos; [apply pos_INR|lra]).
  destruct (Properties_Firstfit.ff_plain _ _ _ _ _ _ _ SH) as (ST & _).
  assert (R := steps_near pow k e (box_true pow) (fun _ => bx) gbox (space_true pow) (fun _ => bx) gspace SK EP).
  eapply Forall_impl; [|eapply R]; cbn beta.
  - intros p H. destruct H as [H|H]; [left|right; exact H]. eapply Rle_trans; [exact H|]. apply Rplus_le_compat_l.
    clear H. unfold line_cost, frags. induction (l_words (snd p)) as [|w r IH]; [cbn; lra|]. cbn [map Rsum list_sum fold_right]. rewrite plus_INR, Rmult_plus_distr_r.
    unfold cost at 1. apply Rplus_le_compat_l. exact IH.
  - intros b H. apply (gbox_width pow M Smax g k n SK WID M0 N1 CK2 b H).
  - intros b H. apply (gbox_hyphen pow M Smax g k n SG SK WID KER M0 N1 CG CK1 CK2 b H).
  - intros b H. apply (gbox_unkern pow M Smax g k n SK WID M0 N1 CK1 CK2 b H).
  - intros t H. apply (gspace_width pow M Smax g k n SG SK WID M0 N1 CG CK1 CK2 t H).
  - intros t H. apply (gspace_unkern pow M Smax g n M0 t H).
  - exact ST.
  - exact G1.
  - apply Forall_forall. intros p IP. assert (X : exists i, fst p = fst (cols i)).
    { clear -IP. revert cols IP. induction cs as [|ls cs IH]; intros cols IP; [destruct IP|]. cbn [placed] in IP. apply in_app_or in IP as [IP|IP].
      - apply in_map_iff in IP as (l & <- & _). exists 0%nat. reflexivity.
      - apply IH in IP as (i & X). exists (S i). exact X. }
    destruct X as (i & X). rewrite X. destruct (C i) as (C1 & C2). split; [exact C1|].
    assert (RL := room_le ws' S0). rewrite G2 in RL. cbn [opt_list]. lra.
  - cbn [opt_list]. auto.
Qed.
(** the space left on all lines but the last *)
Lemma para_space fuel ps st cmd ws ex ws' cols ae lead av cs :
  psg_in sized ps -> st_in sized st -> into_words ps st = Ok (cmd, ws, ex) -> indent_first ws x = Ok ws' -> Forall short ws -> ws <> [] ->
  (forall i, fin (fst (cols i)) /\ Rabs (val (fst (cols i))) + INR (frags ws) * (bx + d k e) <= cap k) ->
  ff_shape fuel ws' cols ae lead av false = Ok cs ->
  Forall (fun p : @num (Float64 pow) * line =>
    Forall (fun w => wl_end pow w = None) (l_words (snd p))
    \/ (close (l_space (snd p)) (val (fst p) - true_line (l_words (snd p))) (INR (frags (l_words (snd p)) + 1) * d k e)
        /\ Rabs (val (fst p) - true_line (l_words (snd p))) <= cap k
        /\ (frags (l_words (snd p)) <= frags ws)%nat
        /\ Forall (fun w => match wl_end pow w with Some t => gspace t | None => True end) (l_words (snd p)))) (removelast (placed cols cs)).
Proof.
  intros P S E I L NE C SH. destruct (para_good _ _ _ _ _ _ P S E I L) as (G1 & G2 & G3).
  assert (S0 : 0 < Smax) by (destruct S as (_ & S1 & S2); lra). destruct (facts M Smax g k M0 S0) as (D1 & D2).
  assert (EP : 0 <= e) by (unfold e_box; apply Rmult_le_pos; [apply pos_INR|lra]).
  destruct (Properties_Firstfit.ff_plain _ _ _ _ _ _ _ SH) as (ST & _).
  assert (R := steps_space pow k e (box_true pow) (fun _ => bx) gbox (space_true pow) (fun _ => bx) gspace SK EP).
  eapply Forall_impl; [|eapply R with (q := Some ws')]; cbn beta.
  - intros p H. destruct H as [H|(H1 & HK & H2 & H3)]; [left; exact H|right]. split; [|split; [exact HK|split; [|exact H3]]].
    + eapply close_weak; [|exact H1]. rewrite frags_cost, plus_INR, Rmult_plus_distr_r. change (frags_of pow (l_words (snd p))) with (frags (l_words (snd p))).
      change (INR 1) with 1. lra.
    + cbn [opt_list] in H2. change (frags_of pow (l_words (snd p))) with (frags (l_words (snd p))) in H2. change (frags_of pow ws') with (frags ws') in H2. rewrite G2 in H2. exact H2.
  - intros b H. apply (gbox_width pow M Smax g k n SK WID M0 N1 CK2 b H).
  - intros b H. apply (gbox_hyphen pow M Smax g k n SG SK WID KER M0 N1 CG CK1 CK2 b H).
  - intros b H. apply (gbox_unkern pow M Smax g k n SK WID M0 N1 CK1 CK2 b H).
  - intros t H. apply (gspace_width pow M Smax g k n SG SK WID M0 N1 CG CK1 CK2 t H).
  - intros t H. apply (gspace_unkern pow M Smax g n M0 t H).
  - exact ST.
  - exact G1.
  - apply Forall_forall. intros p IP. assert (X : exists i, fst p = fst (cols i)).
    { clear -IP. revert cols IP. induction cs as [|ls cs IH]; intros cols IP; [destruct IP|]. cbn [placed] in IP. apply in_app_or in IP as [IP|IP].
      - apply in_map_iff in IP as (l & <- & _). exists 0%nat. reflexivity.
      - apply IH in IP as (i & X). exists (S i). exact X. }
    destruct X as (i & X). rewrite X. destruct (C i) as (C1 & C2). split; [exact C1|].
    assert (RL := room_le ws' S0). rewrite G2 in RL. cbn [opt_list]. lra.
Qed.
End Para.
