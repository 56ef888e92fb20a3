(** * FloatProofs: facts about binary64 numbers (on Flocq's real-valued semantics). *)
From Coq Require Import ZArith Bool Reals Lra Lia.
From Flocq Require Import Core IEEE754.BinarySingleNaN Relative.
From Verif Require Import Base Num Float64.
Open Scope Z_scope.

Definition val (x : b64) : R := B2R x.
Definition fin (x : b64) : Prop := is_finite x = true.
Local Notation fexp := (SpecFloat.fexp 53 1024).
Definition RN (r : R) : R := round radix2 fexp ZnearestE r.
Definition repr (r : R) : Prop := generic_format radix2 fexp r.
Definition top : R := bpow radix2 1024.

Lemma fexp_FLT : fexp = FLT_exp (-1074) 53.
Proof. reflexivity. Qed.
Local Instance vexp : Valid_exp fexp := FLT_exp_valid (-1074) 53.
Lemma val_repr x : repr (val x).
Proof. apply generic_format_B2R. Qed.
Lemma RN_id r : repr r -> RN r = r.
Proof. intros H. apply round_generic; auto with typeclass_instances. Qed.
Lemma RN_le a b : (a <= b)%R -> (RN a <= RN b)%R.
Proof. apply round_le; auto with typeclass_instances. Qed.
Lemma RN_le_repr a b : repr b -> (a <= b)%R -> (RN a <= b)%R.
Proof. intros. apply round_le_generic; auto with typeclass_instances. Qed.
Lemma RN_ge_repr a b : repr a -> (a <= b)%R -> (a <= RN b)%R.
Proof. intros. apply round_ge_generic; auto with typeclass_instances. Qed.
Lemma repr_0 : repr 0.
Proof. apply generic_format_0. Qed.
Lemma val_top x : (Rabs (val x) < top)%R.
Proof. apply abs_B2R_lt_emax. Qed.
(** integers times a power of two *)
Lemma repr_F2R m e : (Z.abs m < 2 ^ 53)%Z -> (-1074 <= e)%Z -> repr (F2R (Float radix2 m e)).
Proof. intros H1 H2. apply generic_format_FLT. exists (Float radix2 m e); cbn; auto. Qed.
Lemma repr_Z m : (Z.abs m < 2 ^ 53)%Z -> repr (IZR m).
Proof. intros H. replace (IZR m) with (F2R (Float radix2 m 0)) by (unfold F2R; cbn; ring). apply repr_F2R; lia. Qed.

Lemma small r : (Rabs r < top)%R -> Rlt_bool (Rabs r) (bpow radix2 1024) = true.
Proof. intros H. apply Rlt_bool_true, H. Qed.
(** a result between two finite numbers does not overflow *)
Lemma mul_val x y : fin x -> fin y -> (Rabs (RN (val x * val y)) < top)%R ->
  fin (bmul x y) /\ val (bmul x y) = RN (val x * val y).
Proof.
  intros X Y H. pose proof (Bmult_correct 53 1024 prec_ok emax_ok mode_NE x y) as B.
  rewrite (small (round radix2 fexp (round_mode mode_NE) (B2R x * B2R y)) H) in B. destruct B as (B1 & B2 & _).
  unfold fin in *. split; [|exact B1]. unfold bmul. rewrite B2, X, Y. reflexivity.
Qed.
Lemma sub_val x y : fin x -> fin y -> (Rabs (RN (val x - val y)) < top)%R ->
  fin (bsub x y) /\ val (bsub x y) = RN (val x - val y).
Proof.
  intros X Y H. pose proof (Bminus_correct 53 1024 prec_ok emax_ok mode_NE x y X Y) as B.
  rewrite (small (round radix2 fexp (round_mode mode_NE) (B2R x - B2R y)) H) in B. destruct B as (B1 & B2 & _). split; [exact B2|exact B1].
Qed.
Lemma add_val x y : fin x -> fin y -> (Rabs (RN (val x + val y)) < top)%R ->
  fin (badd x y) /\ val (badd x y) = RN (val x + val y).
Proof.
  intros X Y H. pose proof (Bplus_correct 53 1024 prec_ok emax_ok mode_NE x y X Y) as B.
  rewrite (small (round radix2 fexp (round_mode mode_NE) (B2R x + B2R y)) H) in B. destruct B as (B1 & B2 & _). split; [exact B2|exact B1].
Qed.
Lemma div_val x y : fin x -> (val y <> 0)%R -> (Rabs (RN (val x / val y)) < top)%R ->
  fin (bdiv x y) /\ val (bdiv x y) = RN (val x / val y).
Proof.
  intros X Y H. pose proof (Bdiv_correct 53 1024 prec_ok emax_ok mode_NE x y Y) as B.
  rewrite (small (round radix2 fexp (round_mode mode_NE) (B2R x / B2R y)) H) in B. destruct B as (B1 & B2 & _).
  unfold fin in *. split; [|exact B1]. unfold bdiv. rewrite B2, X. reflexivity.
Qed.
Lemma norm_val m e s : repr (F2R (Float radix2 m e)) -> (Rabs (F2R (Float radix2 m e)) < top)%R ->
  let z := binary_normalize 53 1024 prec_ok emax_ok mode_NE m e s in fin z /\ val z = F2R (Float radix2 m e).
Proof.
  intros R H z. pose proof (binary_normalize_correct 53 1024 prec_ok emax_ok mode_NE m e s) as B.
  cbn zeta in B. change (round radix2 fexp (round_mode mode_NE) (F2R (Float radix2 m e))) with (RN (F2R (Float radix2 m e))) in B.
  rewrite (RN_id _ R), (small _ H) in B. destruct B as (B1 & B2 & _). split; [exact B2|exact B1].
Qed.
Lemma top_53 : (IZR (2 ^ 53) < top)%R.
Proof. unfold top. replace (IZR (2 ^ 53)) with (bpow radix2 53) by (symmetry; apply (IZR_Zpower radix2 53); lia). apply bpow_lt. lia. Qed.
Lemma of_val z : (Z.abs z < 2 ^ 53)%Z -> fin (bof z) /\ val (bof z) = IZR z.
Proof.
  intros H. assert (E : F2R (Float radix2 z 0) = IZR z) by (unfold F2R; cbn; ring).
  destruct (norm_val z 0 false) as (N1 & N2).
  - apply repr_F2R; lia.
  - rewrite E, <- abs_IZR. apply Rlt_trans with (2 := top_53). apply IZR_lt. exact H.
  - split; [exact N1|]. rewrite <- E. exact N2.
Qed.
Lemma lt_val x y : fin x -> fin y -> Bltb x y = true <-> (val x < val y)%R.
Proof. intros X Y. rewrite (Bltb_correct 53 1024 x y X Y). unfold val. destruct (Rlt_bool_spec (B2R x) (B2R y)); split; intros; auto; try discriminate. lra. Qed.
Lemma le_val x y : fin x -> fin y -> Bleb x y = true <-> (val x <= val y)%R.
Proof. intros X Y. rewrite (Bleb_correct 53 1024 x y X Y). unfold val. destruct (Rle_bool_spec (B2R x) (B2R y)); split; intros; auto; try discriminate. lra. Qed.
Lemma eq_val x y : fin x -> fin y -> Beqb x y = true <-> (val x = val y)%R.
Proof. intros X Y. rewrite (Beqb_correct 53 1024 x y X Y). unfold val. destruct (Req_bool_spec (B2R x) (B2R y)); split; intros; auto; try discriminate. Qed.

(** ** [//] *)
Lemma floor_val x : fin x -> bfloor x = Zfloor (val x).
Proof.
  destruct x as [s|s| |s m e B]; intros F; try discriminate; cbn [bfloor val B2R].
  - symmetry. apply (Zfloor_IZR 0).
  - unfold F2R. cbn [Fnum Fexp]. replace (cond_Zopp s (Z.pos m)) with (if s then Z.neg m else Z.pos m) by (destruct s; reflexivity).
    set (z := if s then Z.neg m else Z.pos m). destruct (Z.leb_spec 0 e) as [H|H].
    + rewrite <- (IZR_Zpower radix2 e H), <- mult_IZR, Zfloor_IZR. reflexivity.
    + rewrite <- Zfloor_div by (apply Z.pow_nonzero; lia). f_equal. unfold Rdiv. f_equal.
      rewrite <- (Z.opp_involutive e) at 2. rewrite bpow_opp. f_equal. rewrite <- IZR_Zpower by lia. reflexivity.
Qed.
Lemma trunc_Z z : (Z.abs z < 2 ^ 53)%Z -> forall x, fin x -> val x = IZR z -> Btrunc x = z.
Proof.
  intros H x F E. apply eq_IZR. rewrite (Btrunc_correct 53 1024 emax_ok). change (B2R x) with (val x). rewrite E.
  apply round_generic; [auto with typeclass_instances|]. apply generic_format_FIX. exists (Float radix2 z 0); [unfold F2R; cbn; ring|reflexivity].
Qed.
Lemma bounded_ints m e : SpecFloat.bounded 53 1024 m e = true -> (-1074 <= e)%Z /\ (Z.pos m < 2 ^ 53)%Z.
Proof.
  intros B. apply andb_true_iff in B as [B _]. apply Zeq_bool_eq in B. unfold SpecFloat.fexp, SpecFloat.emin in B.
  rewrite Digits.Zpos_digits2_pos in B. split; [lia|].
  apply (Digits.Zpower_gt_Zdigits radix2 53 (Z.pos m)). lia.
Qed.
Lemma F2R_shift m e e' : (e' <= e)%Z -> F2R (Float radix2 m e) = F2R (Float radix2 (m * 2 ^ (e - e')) e').
Proof. intros H. rewrite (F2R_change_exp radix2 e' m e H). reflexivity. Qed.
(** the exact quotient and remainder of positive numbers *)
Lemma fmod_val x y : fin x -> fin y -> (0 <= val x)%R -> (0 < val y)%R ->
  exists q, (0 <= q)%Z /\ fin (bfmod x y) /\ val (bfmod x y) = (val x - IZR q * val y)%R /\ (0 <= val (bfmod x y) < val y)%R
    /\ exists k, (IZR q * val y)%R = F2R (Float radix2 k (-1074)).
Proof.
  intros FX FY X Y. destruct y as [sy|sy| |sy my ey By]; try discriminate; [cbn in Y; lra|].
  assert (SY : sy = false). { destruct sy; auto. exfalso. revert Y. unfold val. cbn [B2R]. intros Y. apply Rlt_not_le in Y. apply Y, F2R_le_0. cbn. lia. }
  subst sy. destruct x as [sx|sx| |sx mx ex Bx]; try discriminate.
  { exists 0%Z. cbn [bfmod val B2R]. split; [lia|]. split; [exact FX|]. split; [ring|]. split; [split; [lra|exact Y]|]. exists 0%Z. unfold F2R; cbn; ring. }
  assert (SX : sx = false). { destruct sx; auto. exfalso. revert X. unfold val. cbn [B2R]. intros X. apply Rle_not_lt in X. apply X, F2R_lt_0. cbn. lia. }
  subst sx. cbn [bfmod]. set (e := Z.min ex ey). set (a := (Z.pos mx * 2 ^ (ex - e))%Z). set (b := (Z.pos my * 2 ^ (ey - e))%Z).
  destruct (bounded_ints _ _ Bx) as (X1 & X2). destruct (bounded_ints _ _ By) as (Y1 & Y2).
  assert (EM : (-1074 <= e)%Z) by (unfold e; lia).
  assert (E1 : val (B754_finite false mx ex Bx) = F2R (Float radix2 a e)). { unfold val. cbn [B2R cond_Zopp]. apply F2R_shift. unfold e; lia. }
  assert (E2 : val (B754_finite false my ey By) = F2R (Float radix2 b e)). { unfold val. cbn [B2R cond_Zopp]. apply F2R_shift. unfold e; lia. }
  assert (A0 : (0 <= a)%Z) by (unfold a; apply Z.mul_nonneg_nonneg; [lia|apply Z.pow_nonneg; lia]).
  assert (B0 : (0 < b)%Z) by (unfold b; apply Z.mul_pos_pos; [lia|apply Z.pow_pos_nonneg; unfold e; lia]).
  pose proof (Z.mod_pos_bound a b B0) as M. pose proof (Z.div_mod a b ltac:(lia)) as D.
  assert (RS : (Z.abs (a mod b) < 2 ^ 53)%Z).
  { rewrite Z.abs_eq by lia. destruct (Z.le_ge_cases ex ey) as [L|L].
    - assert (a = Z.pos mx) by (unfold a; replace (ex - e)%Z with 0%Z by (unfold e; lia); lia).
      pose proof (Z.mod_le a b A0 B0). lia.
    - assert (b = Z.pos my) by (unfold b; replace (ey - e)%Z with 0%Z by (unfold e; lia); lia). lia. }
  assert (RF : F2R (Float radix2 (a mod b) e) = (F2R (Float radix2 a e) - IZR (a / b) * F2R (Float radix2 b e))%R).
  { unfold F2R; cbn [Fnum Fexp]. replace (IZR a) with (IZR b * IZR (a / b) + IZR (a mod b))%R by (rewrite <- mult_IZR, <- plus_IZR, <- D; reflexivity). ring. }
  assert (RP : (0 <= F2R (Float radix2 (a mod b) e) < F2R (Float radix2 b e))%R).
  { split; [apply F2R_ge_0; cbn; lia|apply F2R_lt; lia]. }
  destruct (norm_val (a mod b) e false) as (N1 & N2); [apply repr_F2R; auto| |].
  { rewrite Rabs_pos_eq by apply RP. eapply Rlt_trans; [apply RP|]. rewrite <- E2. eapply Rle_lt_trans; [apply Rle_abs|apply val_top]. }
  exists (a / b)%Z. split; [apply Z.div_pos; lia|]. split; [exact N1|]. rewrite N2, E1, E2. split; [exact RF|]. split; [exact RP|].
  exists (a / b * b * 2 ^ (e - -1074))%Z. unfold F2R; cbn [Fnum Fexp]. rewrite !mult_IZR. replace e with ((e - -1074) + -1074)%Z at 1 by lia.
  rewrite bpow_plus, <- IZR_Zpower by lia. change (Z.pow radix2) with (Z.pow 2). ring.
Qed.
Lemma quarter : repr (3 / 8) /\ repr (5 / 8).
Proof.
  split; [replace (3 / 8)%R with (F2R (Float radix2 3 (-3))) by (unfold F2R; cbn [Fnum Fexp]; change (bpow radix2 (-3)) with (/ 8)%R; lra)
         |replace (5 / 8)%R with (F2R (Float radix2 5 (-3))) by (unfold F2R; cbn [Fnum Fexp]; change (bpow radix2 (-3)) with (/ 8)%R; lra)]; apply repr_F2R; lia.
Qed.
Lemma half_val : fin bhalf /\ val bhalf = (1 / 2)%R.
Proof.
  split; [reflexivity|]. unfold val, bhalf. 
  assert (H : B2SF (bdiv (bof 1) (bof 2)) = SpecFloat.S754_finite false 4503599627370496 (-53)) by (vm_compute; reflexivity).
  rewrite <- SF2R_B2SF, H. unfold SF2R, F2R. cbn [Fnum Fexp cond_Zopp]. change (bpow radix2 (-53)) with (/ 9007199254740992)%R. lra.
Qed.
(** For a nonnegative dividend, a positive divisor and a quotient below 2^50, Python's
    [//] is the floor of the exact quotient. *)
Lemma floordiv_val x y : fin x -> fin y -> (0 <= val x)%R -> (0 < val y)%R -> (val x < IZR (2 ^ 50) * val y)%R ->
  bfloordiv x y = Zfloor (val x / val y).
Proof.
  intros FX FY X Y S. destruct (fmod_val x y FX FY X Y) as (q & Q0 & FM & M & MB & k & K).
  assert (QX : (IZR q * val y <= val x)%R) by lra.
  assert (E : Zfloor (val x / val y) = q).
  { apply Zfloor_imp. rewrite plus_IZR. split.
    - apply Rmult_le_reg_r with (val y); auto. unfold Rdiv. rewrite Rmult_assoc, Rinv_l, Rmult_1_r by lra. lra.
    - apply Rmult_lt_reg_r with (val y); auto. unfold Rdiv. rewrite Rmult_assoc, Rinv_l, Rmult_1_r by lra. lra. }
  assert (QB : (q < 2 ^ 50)%Z). { apply lt_IZR. apply Rmult_lt_reg_r with (val y); auto. lra. }
  assert (QR : (0 <= IZR q <= 1125899906842623)%R) by (split; apply IZR_le; lia).
  rewrite E. clear E. unfold bfloordiv. set (m := bfmod x y) in *.
  destruct (of_val 0 ltac:(lia)) as (F0 & V0). destruct (of_val 1 ltac:(lia)) as (F1 & V1).
  assert (L1 : Bltb y (bof 0) = false). { destruct (Bltb y (bof 0)) eqn:L; auto. apply lt_val in L; auto. lra. }
  assert (L2 : Bltb m (bof 0) = false). { destruct (Bltb m (bof 0)) eqn:L; auto. apply lt_val in L; auto. lra. }
  rewrite L1, L2, andb_false_r.
  assert (D1 : (0 <= RN (IZR q * val y) <= val x)%R).
  { split; [apply RN_ge_repr; [apply repr_0|]; apply Rmult_le_pos; lra|apply RN_le_repr; [apply val_repr|exact QX]]. }
  assert (XT : (val x < top)%R) by (eapply Rle_lt_trans; [apply Rle_abs|apply val_top]).
  destruct (sub_val x m FX FM) as (FS & VS).
  { replace (val x - val m)%R with (IZR q * val y)%R by lra. rewrite Rabs_pos_eq by lra. lra. }
  replace (val x - val m)%R with (IZR q * val y)%R in VS by lra.
  set (s := bsub x m) in *.
  destruct (relative_error_N_FLT_F2R_emin_ex radix2 (-1074) 53 prec_ok (fun x => negb (Z.even x)) k) as (eps & EP & RE).
  change (round radix2 (FLT_exp (-1074) 53) (Znearest (fun x => negb (Z.even x))) (F2R (Float radix2 k (-1074)))) with (RN (F2R (Float radix2 k (-1074)))) in RE.
  rewrite <- K in RE. rewrite RE in VS.
  assert (EP' : (Rabs eps <= / 9007199254740992)%R). { eapply Rle_trans; [exact EP|]. change (bpow radix2 (- (53) + 1)) with (/ 4503599627370496)%R. lra. }
  clear EP. apply Rabs_le_inv in EP'. 
  assert (SY : (val s / val y = IZR q * (1 + eps))%R). { rewrite VS. field. lra. }
  assert (T53 := top_53).
  assert (DB : (0 <= RN (val s / val y) <= IZR (2 ^ 51))%R).
  { rewrite SY. assert ((0 <= IZR q * (1 + eps) <= IZR (2 ^ 51))%R).
    { split; [apply Rmult_le_pos; lra|]. apply Rle_trans with (1125899906842623 * 2)%R; [|lra].
      apply Rmult_le_compat; lra. }
    split; [apply RN_ge_repr; [apply repr_0|lra]|apply RN_le_repr; [apply repr_Z; lia|lra]]. }
  destruct (div_val s y FS ltac:(lra)) as (FD & VD).
  { rewrite Rabs_pos_eq by lra. lra. }
  set (d := bdiv s y) in *. rewrite SY in VD.
  destruct (Z.eq_dec q 0) as [-> |QN].
  { assert (VD0 : val d = 0%R) by (rewrite VD, Rmult_0_l; apply RN_id, repr_0).
    replace (Beqb d (bof 0)) with true; [reflexivity|]. symmetry. apply eq_val; auto. }
  assert (Q1 : (1 <= IZR q)%R) by (apply IZR_le; lia).
  assert (ND : (Rabs (val d - IZR q) <= 3 / 8)%R).
  { assert (QE : (- / 8 <= IZR q * eps <= / 8)%R).
    { split.
      - apply Rle_trans with (IZR q * (- / 9007199254740992))%R; [lra|]. apply Rmult_le_compat_l; lra.
      - apply Rle_trans with (IZR q * (/ 9007199254740992))%R; [apply Rmult_le_compat_l; lra|lra]. }
    set (z := (IZR q * (1 + eps))%R) in *. assert (Z1 : (z = IZR q + IZR q * eps)%R) by (unfold z; ring).
    pose proof (relative_error_N_FLT radix2 (-1074) 53 prec_ok (fun x => negb (Z.even x)) z) as R.
    change (round radix2 (FLT_exp (-1074) 53) (Znearest (fun x => negb (Z.even x))) z) with (RN z) in R. rewrite <- VD in R.
    rewrite (Rabs_pos_eq z) in R by lra.
    change (/ 2 * bpow radix2 (- (53) + 1) * z)%R with (/ 2 * / 4503599627370496 * z)%R in R.
    assert (R' : (Rabs (val d - z) <= / 4)%R).
    { eapply Rle_trans; [apply R|lra]. apply Rle_trans with (bpow radix2 (-1)); [apply bpow_le; lia|]. change (bpow radix2 (-1)) with (/ 2)%R. lra. }
    apply Rabs_le. apply Rabs_le_inv in R'. lra. }
  apply Rabs_le_inv in ND.
  assert (DN : Beqb d (bof 0) = false). { destruct (Beqb d (bof 0)) eqn:L; auto. apply eq_val in L; auto. lra. }
  rewrite DN, (floor_val d FD). destruct half_val as (FH & VH). destruct quarter as (R38 & R58).
  assert (FL : Zfloor (val d) = q \/ Zfloor (val d) = (q - 1)%Z).
  { destruct (Rle_or_lt (IZR q) (val d)) as [L|L].
    - left. apply Zfloor_imp. rewrite plus_IZR. lra.
    - right. apply Zfloor_imp. rewrite minus_IZR. replace (q - 1 + 1)%Z with q by lia. lra. }
  destruct FL as [FL|FL]; rewrite FL.
  - destruct (of_val q ltac:(lia)) as (Fq & Vq).
    assert (RB : (Rabs (RN (val d - IZR q)) <= 3 / 8)%R).
    { apply Rabs_le. split; [|apply RN_le_repr; auto; lra]. apply RN_ge_repr; [|lra]. apply generic_format_opp, R38. }
    destruct (sub_val d (bof q) FD Fq) as (FS2 & VS2); [rewrite Vq; lra|]. rewrite Vq in VS2.
    apply Rabs_le_inv in RB.
    replace (Bltb bhalf (bsub d (bof q))) with false.
    + apply trunc_Z; auto. lia.
    + symmetry. destruct (Bltb bhalf (bsub d (bof q))) eqn:L; auto. apply lt_val in L; auto. lra.
  - destruct (of_val (q - 1) ltac:(lia)) as (Fq & Vq).
    assert (FLB := Zfloor_lb (val d)). rewrite FL in FLB.
    assert (VDL : (val d < IZR q)%R). { assert (U := Zfloor_ub (val d)). rewrite FL, minus_IZR in U. lra. }
    assert (RB : (5 / 8 <= RN (val d - IZR (q - 1)) <= 1)%R).
    { rewrite minus_IZR in *. split; [apply RN_ge_repr; auto; lra|]. apply RN_le_repr; [apply (repr_Z 1); lia|lra]. }
    destruct (sub_val d (bof (q - 1)) FD Fq) as (FS2 & VS2); [rewrite Vq, Rabs_pos_eq; lra|]. rewrite Vq in VS2.
    replace (Bltb bhalf (bsub d (bof (q - 1)))) with true.
    + assert (RQ : RN (val (bof (q - 1)) + val (bof 1)) = IZR q).
      { rewrite Vq, V1, <- plus_IZR. replace (q - 1 + 1)%Z with q by lia. apply RN_id, repr_Z. lia. }
      destruct (add_val (bof (q - 1)) (bof 1) Fq F1) as (FA & VA); [rewrite RQ, Rabs_pos_eq; lra|].
      apply trunc_Z; auto; [lia|]. rewrite VA. exact RQ.
    + symmetry. apply lt_val; auto. lra.
Qed.
