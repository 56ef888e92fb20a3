(** * FloatTotal: in doubles, the first-fit lines of a paragraph are always found. *)
From Coq Require Import ZArith Bool Reals.
From Flocq Require Import Core IEEE754.BinarySingleNaN.
From Verif Require Import Base Num Float64 FloatProofs NumInstances RoundErr Fonts State TextSpec StateProofs
  Words WordsSpec WordProofs WordOps Parse Firstfit FirstfitProofs LineSpec Common FontsUsed Layout OptimumTotal Properties_Optimum LayoutTotal SuccessProofs NumLaws Render TextBlock Style Draw LayoutSpec LayoutLaws LawTotal Properties_Firstfit FloatLines FloatWidths FloatText FloatPara.
From Coq Require Import Lra Lia.
Open Scope R_scope.
Section Total.
Context (pow : b64 -> nat -> b64) {ENV : Env (Float64 pow)}.
#[local] Hint Extern 0 Num => exact (Float64 pow) : typeclass_instances.
Context (M Smin Smax : R) (g k : Z) (n : nat).
Hypothesis SG : sane g.
Hypothesis SK : sane k.
Hypothesis WID : forall f c, fin (charwidth f c) /\ Rabs (val (charwidth f c)) <= M.
Hypothesis KER : forall f a b, fin (charkern f a b) /\ Rabs (val (charkern f a b)) <= M.
Hypothesis M0 : 2004 * ulp2 g <= M.
Hypothesis N1 : (1 <= n)%nat.
Hypothesis CG : INR (2 * n + 8) * (M + ulp2 g) <= cap g.
Hypothesis CK1 : 4 * (M * Smax) <= cap k.
Hypothesis CK2 : INR (12 * n + 60) * (M * Smax / 1000 + delta Smax g k) <= cap k.
Hypothesis SM0 : 0 < Smin.
Hypothesis SX : 0 < Smax.
Context (hu : R).
Hypothesis HU0 : 0 <= hu.
Hypothesis HYP : forall f a, hu <= val (@charwidth (Float64 pow) ENV f hyphen_char) + val (@charkern (Float64 pow) ENV f a hyphen_char).
Notation okst := (okst pow Smax).
Notation gbox := (gbox pow M Smax g k n).
Notation gspace := (gspace pow M Smax).
Notation sized := (sized pow Smin Smax).
Notation pgood := (pgood pow M Smax g k n).
Notation e := (e_box Smax g k n).
Notation bx := (B_box M Smax n).
Definition hmin : R := hu / 1000 * Smin.
Lemma hy_size (z : @num (Float64 pow)) y : Smin <= val z -> hu <= y -> hmin <= y / 1000 * val z.
Proof. intros A B. unfold hmin. apply Rmult_le_compat; lra. Qed.
Lemma zero_val (x : @num (Float64 pow)) : fin x -> ntruthy x = false -> val x = 0.
Proof.
  intros F TX. destruct (nZ64 pow 0 ltac:(lia)) as (F0 & V0). unfold ntruthy in TX. apply negb_false_iff in TX.
  change (neqb x n0) with (Beqb x (@nZ (Float64 pow) 0)) in TX. apply (eq_val x _ F F0) in TX. rewrite TX, V0. reflexivity.
Qed.
Lemma slug_hyphen s : slug_in sized s -> slug_true pow s + hmin <= slug_true pow (slug_with_hyphen s).
Proof.
  intros ((_ & A & _) & _). unfold slug_with_hyphen. set (f := st_font (sl_state s)). set (x := charkern f (slug_last s) hyphen_char).
  destruct (KER f (slug_last s) hyphen_char) as (X1 & _). fold x in X1. set (h := charwidth f hyphen_char).
  set (kl := if ntruthy x then sl_kern s ++ [(List.length (sl_txt s), x)] else sl_kern s).
  assert (KS : Rsum (map (fun p : nat * @num (Float64 pow) => val (snd p)) kl) = Rsum (map (fun p : nat * @num (Float64 pow) => val (snd p)) (sl_kern s)) + val x).
  { subst kl. destruct (ntruthy x) eqn:TX; [rewrite map_app, Rsum_app; cbn; lra|]. rewrite (zero_val x X1 TX). ring. }
  assert (HH := hy_size _ _ A (HYP f (slug_last s))). fold x h in HH.
  unfold slug_true. cbn [sl_txt sl_kern sl_state]. rewrite KS, map_app, Rsum_app. cbn [map Rsum]. fold f h.
  set (a := Rsum _) in *. set (b := Rsum _) in *. set (z := val (st_size (sl_state s))) in *.
  replace ((a + (val h + 0) + (b + val x)) / 1000 * z) with ((a + b) / 1000 * z + (val h + val x) / 1000 * z) by field. lra.
Qed.
Lemma box_hyphen b : box_in sized b -> box_true pow b + hmin <= box_true pow (box_with_hyphen b).
Proof.
  destruct b as [s|l st]; cbn [box_in box_with_hyphen box_true]; [apply slug_hyphen|].
  intros (_ & _ & A & _). rewrite map_app, Rsum_app. cbn [map fst Rsum]. rewrite Rplus_0_r. apply Rplus_le_compat_l.
  unfold slug_true. cbn [slug_new sl_txt sl_kern sl_state map Rsum]. set (f := st_font st). set (a := segs_last l).
  destruct (KER f a hyphen_char) as (X1 & _).
  assert (KK : Rsum (map (fun p : nat * @num (Float64 pow) => val (snd p)) (font_kern f [hyphen_char] (Some a))) = val (@charkern (Float64 pow) ENV f a hyphen_char)).
  { clear HYP KER. unfold font_kern, charkern in *. destruct (kerntab f) as [t|]; [|cbn [map Rsum]; symmetry; apply (nZ64 pow 0); lia].
    unfold kern. cbn [pairwise kern_from combine tl]. destruct (ntruthy (t a hyphen_char)) eqn:TX; cbn [map Rsum snd]; [ring|]. symmetry. apply zero_val; assumption. }
  rewrite KK, Rplus_0_r.
  apply (hy_size _ _ A (HYP f a)).
Qed.
(** ** the lines of a paragraph *)
Context (r0 : R).
Definition pending (ws : list wordlike) : Prop :=
  Forall pgood ws /\ Forall (fun w => cost pow k e w <= hmin / 2) ws /\ room pow k e (fun _ => bx) (fun _ => bx) ws <= r0 /\ wls_in sized ws.
Definition usable (W : @num (Float64 pow)) : Prop := fin W /\ Rabs (val W) + r0 <= cap k.
Lemma EP : 0 <= e.
Proof. destruct (facts M Smax g k M0 SX) as (D1 & D2). unfold e_box. apply Rmult_le_pos; [apply pos_INR|lra]. Qed.
Lemma pending_step ws W q l : usable W -> pending ws -> take_line ws W = Ok (q, l) -> pending (opt_list q).
Proof.
  intros (F & U) (P1 & P2 & P3 & P4) T.
  destruct (take_line_near pow k e (box_true pow) (fun _ => bx) gbox (space_true pow) (fun _ => bx) gspace SK EP
    (gbox_width pow M Smax g k n SK WID M0 N1 CK2) (gbox_hyphen pow M Smax g k n SG SK WID KER M0 N1 CG CK1 CK2)
    (gbox_unkern pow M Smax g k n SK WID M0 N1 CK1 CK2) (gspace_width pow M Smax g k n SG SK WID M0 N1 CG CK1 CK2)
    (gspace_unkern pow M Smax g n M0) ws W q l P1 F ltac:(lra) T) as (_ & N2 & N3 & N4).
  split; [exact N2|]. split; [apply N4, P2|]. split; [lra|].
  destruct (take_line_in sized ws W (q, l) P4 T) as (I1 & _). destruct q; [exact I1|constructor].
Qed.
Lemma pending_ok ws W er : usable W -> pending ws -> take_line ws W = Err er -> False.
Proof.
  intros (F & U) (P1 & P2 & P3 & P4) T.
  destruct (take_line_ok pow k e (box_true pow) (fun _ => bx) gbox (space_true pow) (fun _ => bx) gspace SK EP
    (gbox_width pow M Smax g k n SK WID M0 N1 CK2) (gbox_hyphen pow M Smax g k n SG SK WID KER M0 N1 CG CK1 CK2)
    (gspace_width pow M Smax g k n SG SK WID M0 N1 CG CK1 CK2)
    (box_in sized) hmin (fun b _ => box_hyphen b) ws W P1) as (x & X); auto; try lra; [|congruence].
  eapply Forall_impl; [|exact P4]. intros w. apply wl_boxes_in.
Qed.
Lemma size_neq st : st_in sized st -> neqb (st_size st) n0 = false.
Proof.
  intros (F & A & _). destruct (neqb _ _) eqn:E; [|reflexivity]. exfalso. destruct (nZ64 pow 0 ltac:(lia)) as (F0 & V0).
  change (neqb (st_size st) n0) with (Beqb (st_size st) (@nZ (Float64 pow) 0)) in E. apply (eq_val _ _ F F0) in E. rewrite V0 in E. lra.
Qed.
Lemma sized_nz (f : font) (z : @num (Float64 pow)) : sized f z -> neqb z n0 = false.
Proof. intros H. exact (size_neq (mkState f z (mkRGB n0 n0 n0) n0 0%N) H). Qed.
Lemma shape_ok ws (cols : nat -> @num (Float64 pow) * @num (Float64 pow)) ae (lead : @num (Float64 pow)) av j fuel :
  pending ws -> (forall i, usable (fst (cols i))) -> neqb lead n0 = false -> (forall i, (0 <= nfloordiv (snd (cols i)) lead)%Z) ->
  (2 * size ws + 2 <= fuel)%nat -> exists cs, ff_shape fuel ws cols ae lead av j = Ok cs.
Proof.
  intros P C L R F. assert (X : exists cs, ff_shape fuel ws cols ae lead av false = Ok cs).
  { unfold ff_shape. destruct av.
    - destruct (shape_orphans fuel (Some ws) cols ae lead) as [cs|er] eqn:E; [cbn; eauto|]. exfalso.
      eapply (shape_orphans_err pending (fun _ => False) usable pending_step pending_ok); eauto.
    - destruct (shape_simple fuel (Some ws) cols ae lead) as [cs|er] eqn:E; [cbn; eauto|]. exfalso.
      apply (shape_simple_err pending (fun _ => False) usable pending_step pending_ok fuel (Some ws) cols ae lead er); auto. cbn [opt_list]. destruct ae; lia. }
  destruct X as (cs & E). destruct j; [|eauto].
  pose proof (ff_shape_in sized _ _ _ _ _ _ _ _ (proj2 (proj2 (proj2 P))) E) as I. unfold ff_shape in *. apply bind_ok in E as (cs' & E1 & E). apply Ok_inj in E. subst cs'.
  rewrite E1. cbn [bind]. apply mapM_total. eapply Forall_impl; [|exact I]. intros ls LI. apply mapM_total.
  eapply Forall_impl; [|exact LI]. intros l. apply (justify_ok sized sized_nz).
Qed.
Lemma floordiv_ok (h l : @num (Float64 pow)) : fin h -> fin l -> 0 <= val h -> 0 < val l -> val h < IZR (2 ^ 50) * val l -> (0 <= nfloordiv h l)%Z.
Proof.
  intros A B C D E. change (@nfloordiv (Float64 pow) h l) with (bfloordiv h l). rewrite (floordiv_val h l A B C D E).
  apply Zfloor_lub. apply Rmult_le_pos; [exact C|]. left. apply Rinv_0_lt_compat, D.
Qed.
Lemma lead_ok (l : @num (Float64 pow)) : fin l -> 0 < val l -> neqb l n0 = false.
Proof.
  intros F A. destruct (neqb _ _) eqn:E; [|reflexivity]. exfalso. destruct (nZ64 pow 0 ltac:(lia)) as (F0 & V0).
  change (neqb l n0) with (Beqb l (@nZ (Float64 pow) 0)) in E. apply (eq_val _ _ F F0) in E. rewrite V0 in E. lra.
Qed.
End Total.
(** ** a whole paragraph *)
Section Whole.
Context (pow : b64 -> nat -> b64) {ENV : Env (Float64 pow)}.
#[local] Hint Extern 0 Num => exact (Float64 pow) : typeclass_instances.
Lemma wl_indent_count w (x : @num (Float64 pow)) : forall w', wl_indent w x = Ok w' -> List.length (wl_boxes w') = List.length (wl_boxes w).
Proof.
  induction w as [b|w|w IH c]; intros w' E; cbn [wl_indent] in E.
  - apply rmap_inv in E as (b' & _ & ->). reflexivity.
  - apply rmap_inv in E as (v & E & ->). unfold word_indent in E. destruct (ntruthy x); [|apply Ok_inj in E; subst v; reflexivity].
    cbn [wl_boxes]. destruct (w_boxes w) as [|b r] eqn:B.
    + destruct (w_tail w); [|discriminate]. apply rmap_inv in E as (t' & _ & ->). reflexivity.
    + apply rmap_inv in E as (b' & _ & ->). reflexivity.
  - destruct (ntruthy x); [|apply Ok_inj in E; subst w'; reflexivity].
    apply rmap_inv in E as (v & E & ->). exact (IH v E).
Qed.
Lemma indent_counts ws (x : @num (Float64 pow)) ws' : indent_first ws x = Ok ws' ->
  map (fun w => List.length (wl_boxes w)) ws' = map (fun w => List.length (wl_boxes w)) ws.
Proof.
  destruct ws as [|w r]; cbn [indent_first]; intros I; [apply Ok_inj in I; subst; reflexivity|].
  apply bind_ok in I as (w' & E & I). apply Ok_inj in I. subst ws'. cbn [map]. f_equal. eapply wl_indent_count, E.
Qed.
Lemma para_total_near (M Smin Smax : R) (g k : Z) (n m : nat) (hu : R) ps st cmd ws ex (x : @num (Float64 pow))
    (cols : nat -> @num (Float64 pow) * @num (Float64 pow)) ae (lead : @num (Float64 pow)) av j :
  sane g -> sane k -> (forall f c, fin (charwidth f c) /\ Rabs (val (charwidth f c)) <= M) ->
  (forall f a b, fin (charkern f a b) /\ Rabs (val (charkern f a b)) <= M) -> 2004 * ulp2 g <= M -> (1 <= n)%nat ->
  INR (2 * n + 8) * (M + ulp2 g) <= cap g -> 4 * (M * Smax) <= cap k -> INR (12 * n + 60) * (M * Smax / 1000 + delta Smax g k) <= cap k ->
  0 < Smin -> 0 <= hu -> (forall f a, hu <= val (@charwidth (Float64 pow) ENV f hyphen_char) + val (@charkern (Float64 pow) ENV f a hyphen_char)) ->
  fin x -> 2000 * Rabs (val x) <= M * Smin -> all_split ->
  psg_in (sized pow Smin Smax) ps -> st_in (sized pow Smin Smax) st -> into_words ps st = Ok (cmd, ws, ex) ->
  Forall (short pow n) ws -> Forall (fun w => (List.length (wl_boxes w) + 2 <= m)%nat) ws ->
  2 * (INR m * d k (e_box Smax g k n)) <= hu / 1000 * Smin ->
  (forall i, fin (fst (cols i)) /\ Rabs (val (fst (cols i))) + INR (frags pow ws) * (B_box M Smax n + d k (e_box Smax g k n)) <= cap k) ->
  fin lead -> 0 < val lead -> (forall i, fin (snd (cols i)) /\ 0 <= val (snd (cols i)) < IZR (2 ^ 50) * val lead) ->
  exists ws', indent_first ws x = Ok ws' /\ exists n0, forall fuel, (n0 <= fuel)%nat -> exists cs, ff_shape fuel ws' cols ae lead av j = Ok cs.
Proof.
  intros SG SK W K M0 N1 CG CK1 CK2 SM HU0 HYP FX HX HY P S E L LM HM C FL L0 HC.
  assert (SX : 0 < Smax) by (destruct S as (_ & S1 & S2); lra).
  destruct (into_words_in (sized pow Smin Smax) _ _ _ P S E) as (_ & A).
  destruct (indent_first_ok (sized pow Smin Smax) (sized_nz pow Smin Smax n N1 SM) ps st cmd ws ex x HY E A) as (ws' & I). exists ws'. split; [exact I|]. exists (2 * size ws' + 2)%nat. intros fuel F.
  destruct (para_good pow M Smin Smax g k n SG SK W K M0 N1 CG CK2 SM x FX HX ps st cmd ws ex ws' P S E I L) as (G1 & G2 & G3).
  set (r0 := INR (frags pow ws) * (B_box M Smax n + d k (e_box Smax g k n))).
  assert (PE : pending pow M Smin Smax g k n hu r0 ws').
  { split; [exact G1|]. split; [|split].
    - apply indent_counts in I. assert (DP : 0 <= d k (e_box Smax g k n)) by (left; apply d_pos; apply (EP M Smax g k n M0 SX)).
      assert (X : Forall (fun z => (z + 2 <= m)%nat) (map (fun w => List.length (wl_boxes w)) ws')) by (rewrite I; apply Forall_map; exact LM).
      rewrite Forall_map in X. eapply Forall_impl; [|exact X]. cbn beta. intros w Hw. unfold cost, hmin.
      assert (Y : INR (List.length (wl_boxes w) + 2) * d k (e_box Smax g k n) <= INR m * d k (e_box Smax g k n)) by (apply Rmult_le_compat_r; [exact DP|apply le_INR, Hw]). lra.
    - assert (RL := room_le pow M Smax g k n M0 ws' SX). rewrite G2 in RL. exact RL.
    - eapply indent_first_in; eauto. }
  apply (shape_ok pow M Smin Smax g k n SG SK W K M0 N1 CG CK1 CK2 SM SX hu HU0 HYP r0 ws' cols ae lead av j fuel PE); auto.
  - apply (lead_ok pow n N1); auto.
  - intros i. destruct (HC i) as (H1 & H2 & H3). apply (floordiv_ok pow); auto.
Qed.
(** ** what [LawTotal] asks of the lines *)
Section Pages.
Context (M Smin Smax : R) (g k : Z) (n m : nat) (hu : R) (most_pieces : nat).
Hypothesis SG : sane g.
Hypothesis SK : sane k.
Hypothesis WID : forall f c, fin (charwidth f c) /\ Rabs (val (charwidth f c)) <= M.
Hypothesis KER : forall f a b, fin (charkern f a b) /\ Rabs (val (charkern f a b)) <= M.
Hypothesis M0 : 2004 * ulp2 g <= M.
Hypothesis N1 : (1 <= n)%nat.
Hypothesis CG : INR (2 * n + 8) * (M + ulp2 g) <= cap g.
Hypothesis CK1 : 4 * (M * Smax) <= cap k.
Hypothesis CK2 : INR (12 * n + 60) * (M * Smax / 1000 + delta Smax g k) <= cap k.
Hypothesis SM0 : 0 < Smin.
Notation sized := (sized pow Smin Smax).
Notation e := (e_box Smax g k n).
Notation bx := (B_box M Smax n).
Definition modest (gr : list passage) : Prop := forall st cmd ws ex, into_words gr st = Ok (cmd, ws, ex) ->
  Forall (short pow n) ws /\ Forall (fun w => (List.length (wl_boxes w) + 2 <= m)%nat) ws /\ (frags pow ws <= most_pieces)%nat.
Definition suitable (c : @column (Float64 pow)) : Prop :=
  fin (c_width c) /\ 0 <= val (c_width c) /\ val (c_width c) + INR most_pieces * (bx + d k e) <= cap k.
Context (p : @para (Float64 pow)).
Hypothesis FF : p_optimal p = None.
Hypothesis FX : fin (p_indent p).
Hypothesis HX : 2000 * Rabs (val (p_indent p)) <= M * Smin.
Lemma suitable_width ws (c : @column (Float64 pow)) : 0 < Smax -> suitable c -> (frags pow ws <= most_pieces)%nat ->
  fin (c_width c) /\ Rabs (val (c_width c)) + INR (frags pow ws) * (bx + d k e) <= cap k.
Proof.
  intros SX (A & B & C) L. split; [exact A|]. rewrite (Rabs_right (val (c_width c))) by lra.
  assert (DP := d_pos k e (EP M Smax g k n M0 SX)). destruct (facts M Smax g k M0 SX) as (D1 & D2).
  assert (BP : 0 <= bx) by (unfold B_box; apply Rmult_le_pos; [apply pos_INR|lra]).
  assert (X : INR (frags pow ws) * (bx + d k e) <= INR most_pieces * (bx + d k e)) by (apply Rmult_le_compat_r; [lra|apply le_INR, L]). lra.
Qed.
Lemma modest_lays lead : is_justify (p_align p) = false ->
  lays (fun W l => line_adv pow (box_true pow) (space_true pow) (prune_last (tl_words l)) <= val W + INR (frags pow (tl_words l)) * d k e
                   \/ one_fragment (tl_words l)) sized modest suitable p lead.
Proof.
  intros NJ gr st cmd ws ex ws' cs ae fuel chunks A P S E I DC SH i ls NT.
  unfold shape in SH. rewrite FF, NJ in SH. apply rmap_inv in SH as (out & SH & ->). rewrite nth_error_map in NT.
  destruct (nth_error out i) as [l0|] eqn:NE; [|discriminate]. injection NT as <-. apply Forall_map. cbn [ff_tline tl_words].
  destruct (A st cmd ws ex E) as (A1 & A2 & A3). assert (SX : 0 < Smax) by (destruct S as (_ & S1 & S2); lra).
  set (cols := fun i : nat => (c_width (cf_box (cs i)), cf_free (cs i))) in *.
  assert (PL : forall (cols : nat -> @num (Float64 pow) * @num (Float64 pow)) (out : list (list (@line (Float64 pow)))) i l0, nth_error out i = Some l0 ->
     forall l, In l l0 -> In (fst (cols i), l) (placed cols out)).
  { clear. intros cols out. revert cols. induction out as [|c out IH]; intros cols [|i] l0 N l I; try discriminate; cbn [placed]; apply in_or_app.
    - injection N as ->. left. apply in_map. exact I.
    - right. exact (IH (fun j => cols (S j)) i l0 N l I). }
  apply Forall_forall. intros l IL. specialize (PL cols out i l0 NE l IL). cbn [fst] in PL.
  assert (NEW : ws = [] \/ ws <> []) by (destruct ws; [left; reflexivity|right; discriminate]). destruct NEW as [-> |NEW].
  - left. cbn [indent_first] in I. apply Ok_inj in I. subst ws'.
    destruct (Properties_Firstfit.ff_plain _ _ _ _ _ _ _ SH) as (ST & _). 
    assert (X : forall p0, In p0 (placed cols out) -> l_words (snd p0) = []).
    { clear -ST. revert ST. generalize (placed cols out). intros L ST. inversion ST as [|? w q l0 r z T ST']; subst.
      cbn [take_line fit_words] in T. apply Ok_inj in T. injection T as <- <-. inversion ST'; subst. intros p0 [<-|[]]. reflexivity. }
    rewrite (X _ PL : l_words l = []). cbn. destruct (DC i) as (_ & D2 & _). lra.
  - assert (R := para_lines pow M Smin Smax g k n SG SK WID KER M0 N1 CG CK1 CK2 SM0 (p_indent p) FX HX fuel gr st cmd ws ex ws' cols ae lead _ out
      P S E I A1 NEW (fun i => suitable_width ws _ SX (DC i) A3) SH).
    rewrite Forall_forall in R. exact (R _ PL).
Qed.
Hypothesis HU0 : 0 <= hu.
Hypothesis HYP : forall f a, hu <= val (@charwidth (Float64 pow) ENV f hyphen_char) + val (@charkern (Float64 pow) ENV f a hyphen_char).
Hypothesis HY : all_split.
Hypothesis HM : 2 * (INR m * d k e) <= hu / 1000 * Smin.
Lemma modest_breaks (H lead : @num (Float64 pow)) : fin H -> fin lead -> 0 < val lead -> val H < IZR (2 ^ 50) * val lead ->
  breaks fin sized modest suitable H p lead.
Proof.
  intros FH FL L0 LH gr st cmd ws ex ws' cs ae A P S E I WI HC DC. destruct (A st cmd ws ex E) as (A1 & A2 & A3).
  assert (SX : 0 < Smax) by (destruct S as (_ & S1 & S2); lra).
  destruct (para_total_near M Smin Smax g k n m hu gr st cmd ws ex (p_indent p) (fun i : nat => (c_width (cf_box (cs i)), cf_free (cs i))) ae lead (p_orphans p) (is_justify (p_align p))) as (v & I' & n0 & T); auto.
  - intros i. apply (suitable_width ws _ SX (DC i) A3).
  - intros i. cbn [snd]. destruct (HC i) as (H1 & H2 & H3). split; [exact H1|]. destruct (nZ64 pow 0 ltac:(lia)) as (F0 & V0).
    apply (le64 pow) in H2; auto. apply (le64 pow) in H3; auto. change (@Num.n0 (Float64 pow)) with (@nZ (Float64 pow) 0) in H2. rewrite V0 in H2. lra.
  - rewrite I in I'. apply Ok_inj in I'. subst v. exists n0. intros fuel L. destruct (T fuel L) as (cs0 & SH).
    unfold shape. rewrite FF, SH. cbn. eexists. split; [reflexivity|]. apply ff_some in SH. destruct cs0; [congruence|discriminate].
Qed.
End Pages.
End Whole.
