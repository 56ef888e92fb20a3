(** * FloatRules: Python's [//] in doubles, when the dividend is not positive. *)
From Coq Require Import ZArith Bool Reals.
From Flocq Require Import Core IEEE754.BinarySingleNaN.
From Verif Require Import Base Num Float64 FloatProofs NumInstances NumLaws RoundErr Fonts LayoutLaws.
From Coq Require Import Lra Lia.
Open Scope R_scope.
Lemma bof_low z : (z <= 0)%Z -> Rabs (IZR z) <= cap 200 -> fin (bof z) /\ val (bof z) = RN (IZR z).
Proof.
  intros Z0 ZB. assert (S : sane 200) by (unfold sane; lia). assert (RB := RN_small 200 (IZR z) S ZB).
  assert (E : F2R (Float radix2 z 0) = IZR z) by (unfold F2R; cbn; ring).
  pose proof (binary_normalize_correct 53 1024 prec_ok emax_ok mode_NE z 0 false) as B. cbn zeta in B.
  change (round radix2 (SpecFloat.fexp 53 1024) (round_mode mode_NE) (F2R (Float radix2 z 0))) with (RN (F2R (Float radix2 z 0))) in B.
  rewrite E, (small _ RB) in B. destruct B as (B1 & B2 & _). split; [exact B2|exact B1].
Qed.
(** the remainder of a dividend that is not positive *)
Lemma fmod_low x y : fin x -> fin y -> val x <= 0 -> 0 < val y -> fin (bfmod x y) /\ val x <= val (bfmod x y) <= 0.
Proof.
  intros FX FY X Y. destruct y as [sy|sy| |sy my ey By]; try discriminate; [cbn in Y; lra|].
  destruct x as [sx|sx| |sx mx ex Bx]; try discriminate.
  { cbn [bfmod val B2R] in *. split; [exact FX|]. lra. }
  assert (SX : sx = true). { destruct sx; auto. exfalso. revert X. unfold val. cbn [B2R]. intros X. apply Rle_not_lt in X. apply X, F2R_gt_0. cbn. lia. }
  subst sx. cbn [bfmod]. set (e := Z.min ex ey). set (a := (Z.pos mx * 2 ^ (ex - e))%Z). set (b := (Z.pos my * 2 ^ (ey - e))%Z).
  destruct (bounded_ints _ _ Bx) as (X1 & X2). destruct (bounded_ints _ _ By) as (Y1 & Y2).
  assert (EM : (-1074 <= e)%Z) by (unfold e; lia).
  assert (E1 : val (B754_finite true mx ex Bx) = F2R (Float radix2 (- a) e)).
  { unfold val. cbn [B2R cond_Zopp]. rewrite (F2R_shift _ _ e) by (unfold e; lia). f_equal. f_equal. unfold a. change (Z.neg mx) with (- Z.pos mx)%Z. lia. }
  assert (A0 : (0 <= a)%Z) by (unfold a; apply Z.mul_nonneg_nonneg; [lia|apply Z.pow_nonneg; lia]).
  assert (B0 : (0 < b)%Z) by (unfold b; apply Z.mul_pos_pos; [lia|apply Z.pow_pos_nonneg; unfold e; lia]).
  pose proof (Z.mod_pos_bound a b B0) as M. pose proof (Z.mod_le a b A0 B0) as ML.
  assert (RS : (Z.abs (- (a mod b)) < 2 ^ 53)%Z).
  { rewrite Z.abs_opp, Z.abs_eq by lia. destruct (Z.le_ge_cases ex ey) as [L|L].
    - assert (a = Z.pos mx) by (unfold a; replace (ex - e)%Z with 0%Z by (unfold e; lia); lia). lia.
    - assert (b = Z.pos my) by (unfold b; replace (ey - e)%Z with 0%Z by (unfold e; lia); lia). lia. }
  assert (LE : F2R (Float radix2 (- a) e) <= F2R (Float radix2 (- (a mod b)) e) <= 0).
  { split; [apply F2R_le; lia|]. apply F2R_le_0. cbn. lia. }
  assert (TX := val_top (B754_finite true mx ex Bx)). rewrite E1 in *. apply Rabs_lt_inv in TX.
  destruct (norm_val (- (a mod b)) e true) as (N1 & N2); [apply repr_F2R; assumption|apply Rabs_lt; lra|].
  rewrite N2. split; [exact N1|exact LE].
Qed.
Lemma pow_up a b : (a <= b)%Z -> bpow radix2 a <= bpow radix2 b.
Proof. apply bpow_le. Qed.
(** [//] is not positive then: no line fits *)
Lemma floordiv_low x y : fin x -> fin y -> - cap 70 <= val x <= 0 -> / cap 40 <= val y -> (bfloordiv x y <= 0)%Z.
Proof.
  intros FX FY X Y. assert (C40 := cap_pos 40). assert (I40 := Rinv_0_lt_compat _ C40). destruct (fmod_low x y FX FY ltac:(lra) ltac:(lra)) as (FM & M1 & M2).
  unfold bfloordiv. set (m := bfmod x y) in *. destruct (of_val 0 ltac:(lia)) as (F0 & V0). destruct (of_val 1 ltac:(lia)) as (F1 & V1).
  assert (S70 : sane 70) by (unfold sane; lia). assert (S200 : sane 200) by (unfold sane; lia).
  assert (DB : Rabs (val x - val m) <= cap 70) by (apply Rabs_le; lra).
  destruct (sub_val x m FX FM (RN_small 70 _ S70 DB)) as (FS & VS).
  assert (S0 : val (bsub x m) <= 0) by (rewrite VS; apply RN_le_repr; [apply repr_0|lra]).
  assert (RC : forall k, (-1074 <= k)%Z -> repr (- cap k)).
  { intros k K. replace (- cap k) with (F2R (Float radix2 (-1) k)) by (unfold cap, F2R; cbn; ring). apply repr_F2R; [cbn; lia|exact K]. }
  assert (S1 : - cap 70 <= val (bsub x m)) by (rewrite VS; apply RN_ge_repr; [apply RC; lia|lra]).
  set (s := bsub x m) in *.
  assert (C110 : cap 70 * cap 40 = cap 110) by (unfold cap; rewrite <- bpow_plus; reflexivity).
  assert (C1 : cap 110 + 1 <= cap 111).
  { unfold cap. change 111%Z with (1 + 110)%Z. rewrite bpow_plus. assert (P := pow_up 0 110 ltac:(lia)). change (bpow radix2 0) with 1 in P. change (bpow radix2 1) with 2. lra. }
  assert (C2 : cap 111 + 1 <= cap 200).
  { unfold cap. assert (P := pow_up 0 111 ltac:(lia)). assert (P2 := pow_up (1 + 111) 200 ltac:(lia)). rewrite bpow_plus in P2. change (bpow radix2 0) with 1 in P. change (bpow radix2 1) with 2 in P2. lra. }
  assert (Q : - cap 110 <= val s / val y <= 0).
  { assert (YI : 0 < / val y <= cap 40).
    { split; [apply Rinv_0_lt_compat; lra|]. rewrite <- (Rinv_inv (cap 40)). apply Rinv_le; lra. }
    rewrite <- C110. unfold Rdiv. assert (C70 := cap_pos 70). split; nra. }
  assert (QB : Rabs (val s / val y) <= cap 200) by (apply Rabs_le; lra).
  destruct (div_val s y FS ltac:(lra) (RN_small 200 _ S200 QB)) as (FD & VD).
  assert (D1 : - cap 110 <= val (bdiv s y) <= 0).
  { rewrite VD. split; [apply RN_ge_repr; [apply RC; lia|lra]|apply RN_le_repr; [apply repr_0|lra]]. }
  set (d0 := bdiv s y) in *. match goal with |- context [if ?c then bsub d0 (bof 1) else d0] => set (c0 := c); set (d := if c0 then bsub d0 (bof 1) else d0) end.
  assert (D : fin d /\ - cap 111 <= val d <= 0).
  { unfold d. destruct c0; [|split; [exact FD|lra]].
    assert (BB : Rabs (val d0 - val (bof 1)) <= cap 200) by (rewrite V1; apply Rabs_le; lra).
    destruct (sub_val d0 (bof 1) FD F1 (RN_small 200 _ S200 BB)) as (FE & VE). split; [exact FE|]. rewrite VE, V1.
    split; [apply RN_ge_repr; [apply RC; lia|lra]|apply RN_le_repr; [apply repr_0|lra]]. }
  destruct D as (D3 & D4). clearbody d. destruct (Beqb d (bof 0)) eqn:Z; [lia|].
  assert (DN : val d < 0).
  { destruct (Req_dec (val d) 0) as [E|E]; [|lra]. exfalso. assert (X0 : Beqb d (bof 0) = true) by (apply eq_val; auto; rewrite V0; exact E). congruence. }
  rewrite floor_val by exact D3. set (z := Zfloor (val d)).
  assert (Z1 : (z <= -1)%Z). { assert (IZR z <= val d) by apply Zfloor_lb. assert (IZR z < 0) by lra. apply lt_IZR in H0. lia. }
  assert (Z2 : - cap 111 - 1 <= IZR z). { assert (val d < IZR z + 1) by apply Zfloor_ub. lra. }
  assert (ZR : IZR z <= -1) by (apply (IZR_le z (-1)), Z1).
  destruct (bof_low z ltac:(lia)) as (FZ & VZ); [apply Rabs_le; lra|].
  assert (FL : - cap 200 <= val (bof z) <= -1).
  { rewrite VZ. split; [apply RN_ge_repr; [apply RC; lia|lra]|apply RN_le_repr; [|lra]]. apply (repr_Z (-1)). lia. }
  match goal with |- context [if ?c then badd (bof z) (bof 1) else bof z] => set (c1 := c); set (f' := if c1 then badd (bof z) (bof 1) else bof z) end.
  assert (F' : fin f' /\ val f' <= 0).
  { unfold f'. destruct c1; [|split; [exact FZ|lra]].
    assert (BB : Rabs (val (bof z) + val (bof 1)) <= cap 200) by (rewrite V1; apply Rabs_le; lra).
    destruct (add_val (bof z) (bof 1) FZ F1 (RN_small 200 _ S200 BB)) as (FE & VE). split; [exact FE|]. rewrite VE, V1. apply RN_le_repr; [apply repr_0|lra]. }
  destruct F' as (F2 & F3). clearbody f'.
  assert (T := Btrunc_correct 53 1024 emax_ok f'). apply le_IZR. rewrite T. rewrite round_FIX_IZR. apply IZR_le.
  change (Ztrunc (val f') <= 0)%Z. rewrite Ztrunc_ceil by exact F3. apply Zceil_glb. exact F3.
Qed.
(** ** A rest below zero: rules do not make it overflow, as -2^70 swallows them *)
Lemma RN_swallows r : - cap 70 - 10000 <= r -> - cap 70 <= RN r.
Proof.
  intros B. destruct (Rle_lt_dec (- cap 70) (RN r)) as [L|L]; [exact L|]. exfalso.
  assert (RC : repr (cap 70)).
  { replace (cap 70) with (F2R (Float radix2 1 70)) by (unfold cap, F2R; cbn; ring). apply repr_F2R; [cbn; lia|lia]. }
  assert (VE : Valid_exp (SpecFloat.fexp 53 1024)) by (apply fexp_correct; reflexivity).
  assert (RR : repr (RN r)) by (apply generic_format_round; [exact VE|apply valid_rnd_N]).
  assert (S := @succ_le_lt radix2 (SpecFloat.fexp 53 1024) VE (cap 70) (- RN r) RC (generic_format_opp _ _ _ RR) ltac:(lra)).
  rewrite succ_eq_pos in S by (apply Rlt_le, cap_pos).
  replace (ulp radix2 (SpecFloat.fexp 53 1024) (cap 70)) with (bpow radix2 18) in S.
  2:{ unfold cap. rewrite ulp_bpow. reflexivity. }
  assert (N := proj2 (round_N_pt radix2 (SpecFloat.fexp 53 1024) (fun x => negb (Z.even x)) r) (- cap 70) (generic_format_opp _ _ _ RC)).
  change (round radix2 (SpecFloat.fexp 53 1024) ZnearestE r) with (RN r) in N.
  assert (P18 : bpow radix2 18 = 262144) by (rewrite <- (IZR_Zpower radix2) by lia; reflexivity). rewrite P18 in S.
  destruct (Rle_lt_dec (- cap 70) r) as [G|G].
  - assert (X := RN_ge_repr (- cap 70) r (generic_format_opp _ _ _ RC) G). lra.
  - rewrite (Rabs_left1 (RN r - r)) in N by lra. rewrite (Rabs_right (- cap 70 - r)) in N by lra. lra.
Qed.
(** the rest of a column, and the height of a rule *)
Definition rest_ok (a : b64) : Prop := fin a /\ - cap 70 <= val a <= 10000.
Definition rule_ok (t : b64) : Prop := fin t /\ 0 <= val t <= 10000.
Lemma rest_sub pow (a t : @num (Float64 pow)) : rest_ok a -> rule_ok t ->
  rest_ok (nsub a t) /\ (@lt (Float64 pow) a t -> @le (Float64 pow) (nsub a t) n0) /\ (@le (Float64 pow) a n0 -> @le (Float64 pow) (nsub a t) n0).
Proof.
  intros (FA & A) (FT & T). destruct (nZ64 pow 0 ltac:(lia)) as (F0 & V0). change (@nZ (Float64 pow) 0) with (@n0 (Float64 pow)) in *.
  assert (C : cap 70 + 20000 <= cap 71).
  { unfold cap. change 71%Z with (1 + 70)%Z. rewrite bpow_plus. change (bpow radix2 1) with 2. assert (P := pow_up 20 70 ltac:(lia)).
    replace (bpow radix2 20) with 1048576 in P by (rewrite <- (IZR_Zpower radix2) by lia; reflexivity). lra. }
  assert (S71 : sane 71) by (unfold sane; lia).
  destruct (sub_val a t FA FT) as (FS & VS); [apply (RN_small 71 _ S71), Rabs_le; assert (CP := cap_pos 70); lra|].
  change (bsub a t) with (@nsub (Float64 pow) a t) in *.
  split; [split; [exact FS|]; rewrite VS; split; [apply RN_swallows; lra|apply RN_le_repr; [apply (repr_Z 10000); lia|lra]]|].
  split; intros X.
  - apply (lt64 pow) in X; auto. apply (le64 pow); auto. rewrite VS, V0. apply RN_le_repr; [apply repr_0|lra].
  - apply (le64 pow) in X; auto. apply (le64 pow); auto. rewrite VS. rewrite V0 in *. apply RN_le_repr; [apply repr_0|lra].
Qed.
Section Lines.
Context (pow : b64 -> nat -> b64) (H : @num (Float64 pow)).
Hypothesis FH : fin H.
Hypothesis VH : val H = 10000.
Lemma height_rest a : @height (Float64 pow) fin H a -> rest_ok a.
Proof.
  intros (FA & L1 & L2). destruct (nZ64 pow 0 ltac:(lia)) as (F0 & V0). change (@nZ (Float64 pow) 0) with (@n0 (Float64 pow)) in *.
  apply (le64 pow) in L1; auto. apply (le64 pow) in L2; auto. split; [exact FA|]. assert (CP := cap_pos 70). rewrite V0 in L1. lra.
Qed.
Lemma lead_some lead : @line_height (Float64 pow) fin H lead -> fin lead /\ / cap 40 <= val lead.
Proof.
  intros (FL & L0 & LM). destruct (nZ64 pow 0 ltac:(lia)) as (F0 & V0). change (@nZ (Float64 pow) 0) with (@n0 (Float64 pow)) in *.
  apply (lt64 pow) in L0; auto. rewrite V0 in L0. split; [exact FL|]. destruct (Rle_lt_dec (/ cap 40) (val lead)) as [X|X]; [exact X|]. exfalso.
  destruct (nZ64 pow most ltac:(unfold most; cbn; lia)) as (FM & VM).
  assert (MB : 0 <= val (@nZ (Float64 pow) most) * val lead <= 1024).
  { rewrite VM. split; [apply Rmult_le_pos; [apply (IZR_le 0); unfold most; cbn; lia|lra]|].
    apply Rle_trans with (IZR most * / cap 40); [apply Rmult_le_compat_l; [apply (IZR_le 0); unfold most; cbn; lia|lra]|].
    unfold cap. replace (IZR most) with (bpow radix2 50) by (rewrite <- (IZR_Zpower radix2 50) by lia; reflexivity). rewrite <- bpow_opp, <- bpow_plus. change (50 + - (40))%Z with 10%Z.
    rewrite <- (IZR_Zpower radix2) by lia. apply IZR_le. cbn. lia. }
  assert (S20 : sane 20) by (unfold sane; lia). assert (C20 : cap 20 = 1048576) by (unfold cap; rewrite <- (IZR_Zpower radix2) by lia; reflexivity).
  destruct (mul_val (@nZ (Float64 pow) most) lead FM FL) as (FP & VP); [apply (RN_small 20 _ S20), Rabs_le; lra|].
  change (bmul (@nZ (Float64 pow) most) lead) with (@nmul (Float64 pow) (nZ most) lead) in *.
  apply (lt64 pow) in LM; auto. rewrite VP, VH in LM. assert (Y : RN (val (@nZ (Float64 pow) most) * val lead) <= 1024) by (apply RN_le_repr; [apply (repr_Z 1024); lia|apply MB]). lra.
Qed.
Lemma over_none a lead : rest_ok a -> @le (Float64 pow) a n0 -> @line_height (Float64 pow) fin H lead -> (@nfloordiv (Float64 pow) a lead <= 0)%Z.
Proof.
  intros (FA & A1 & _) L LH. destruct (nZ64 pow 0 ltac:(lia)) as (F0 & V0). change (@nZ (Float64 pow) 0) with (@n0 (Float64 pow)) in *.
  apply (le64 pow) in L; auto. rewrite V0 in L. destruct (lead_some lead LH) as (FL & LL). apply floordiv_low; auto.
Qed.
Lemma zero_none lead : @line_height (Float64 pow) fin H lead -> @nfloordiv (Float64 pow) n0 lead = 0%Z.
Proof.
  intros LH. destruct (nZ64 pow 0 ltac:(lia)) as (F0 & V0). change (@nZ (Float64 pow) 0) with (@n0 (Float64 pow)) in *. destruct (lead_some lead LH) as (FL & LL).
  assert (IP : 0 < / cap 40) by (apply Rinv_0_lt_compat, cap_pos).
  change (bfloordiv (@n0 (Float64 pow)) lead = 0%Z). rewrite floordiv_val; auto; rewrite ?V0; try lra.
  unfold Rdiv. rewrite Rmult_0_l. apply (Zfloor_IZR 0).
Qed.
End Lines.
