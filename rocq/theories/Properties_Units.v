(** * Units, paper sizes and named colours: C82 *)
From Coq Require Import String ZArith QArith Qcanon.
From Coq Require Import Reals.
From Flocq Require Import Core IEEE754.BinarySingleNaN Relative.
From Verif Require Import Base Float64 FloatProofs.
From Verif Require Import Num Fonts State Common Draw Document Units Properties_Common.
From Coq Require Import Lra Lia.
Open Scope nat_scope.

(** ** C82.  A length in inches, centimetres, millimetres or picas is converted to points
    (72 to the inch, 2.54 cm to the inch, 12 to the pica): in doubles, for every number
    between 2^-900 and 2^1000 in size, to within two units of the 52nd binary digit. *)
Definition points_per_inch : R := 72.
Definition converts (f : b64 -> b64) (r : R) : Prop :=
  forall x : b64, fin x -> (bpow radix2 (-900) <= Rabs (val x) < bpow radix2 1000)%R ->
  fin (f x) /\ (Rabs (val (f x) - r * val x) <= / 2 ^ 51 * Rabs (r * val x))%R.

Lemma factor_val pow (q : Q) : (Z.abs (Qnum q) < 2 ^ 53)%Z -> (Z.pos (Qden q) < 2 ^ 53)%Z -> repr (IZR (Qnum q) / IZR (Z.pos (Qden q))) ->
  (Rabs (IZR (Qnum q) / IZR (Z.pos (Qden q))) < top)%R ->
  fin (@nQ (Float64 pow) q) /\ val (@nQ (Float64 pow) q) = (IZR (Qnum q) / IZR (Z.pos (Qden q)))%R.
Proof.
  intros H1 H2 H3 H4. cbn [nQ Float64]. destruct (of_val (Qnum q) H1) as (F1 & V1). destruct (of_val (Z.pos (Qden q)) ltac:(lia)) as (F2 & V2).
  assert (NZ : val (bof (Z.pos (Qden q))) <> 0%R) by (rewrite V2; apply IZR_neq; lia).
  rewrite <- V1, <- V2 in H3, H4 |- *. rewrite <- (RN_id _ H3) in H4 |- *. destruct (div_val _ _ F1 NZ H4) as (A & B). split; [exact A|].
  rewrite B. reflexivity.
Qed.
Lemma mul_converts (c : b64) (C r : R) : fin c -> val c = C -> (1 <= C <= 100)%R -> (Rabs (C - r) <= / 2 ^ 52 * r)%R -> (0 < r)%R -> converts (bmul c) r.
Proof.
  intros Fc Vc BC ER RP x Fx (X1 & X2).
  assert (LO : (bpow radix2 (-1074 + 53 - 1) <= Rabs (C * val x))%R).
  { rewrite Rabs_mult, (Rabs_pos_eq C) by lra. apply Rle_trans with (1 * Rabs (val x))%R; [|apply Rmult_le_compat_r; [apply Rabs_pos|lra]].
    rewrite Rmult_1_l. eapply Rle_trans; [|exact X1]. apply bpow_le. lia. }
  pose proof (relative_error_N_FLT radix2 (-1074) 53 ltac:(reflexivity) (fun z => negb (Z.even z)) _ LO) as RE.
  change (round radix2 (FLT_exp (-1074) 53) ZnearestE (C * val x)) with (RN (C * val x)) in RE.
  assert (K : (/ 2 * bpow radix2 (Z.opp 53 + 1) = / 2 ^ 53)%R).
  { change (bpow radix2 (Z.opp 53 + 1)) with (/ IZR (2 ^ 52))%R. change (IZR (2 ^ 52)) with (IZR 4503599627370496). field_simplify; lra. }
  rewrite K in RE. clear K.
  assert (AB : (Rabs (RN (C * val x)) < top)%R).
  { assert (U : (Rabs (C * val x) <= 100 * bpow radix2 1000)%R).
    { rewrite Rabs_mult, (Rabs_pos_eq C) by lra. apply Rmult_le_compat; try lra. apply Rabs_pos. }
    assert (E : (Rabs (RN (C * val x)) <= Rabs (RN (C * val x) - C * val x) + Rabs (C * val x))%R).
    { replace (RN (C * val x)) with ((RN (C * val x) - C * val x) + C * val x)%R at 1 by ring. apply Rabs_triang. }
    assert (T : (top = 16777216 * bpow radix2 1000)%R).
    { unfold top. replace 1024%Z with (24 + 1000)%Z by lia. rewrite bpow_plus. reflexivity. }
    pose proof (bpow_gt_0 radix2 1000) as P. rewrite T. assert (/ 2 ^ 53 <= 1)%R by (apply Rinv_le_1 || (rewrite <- Rinv_1; apply Rinv_le; lra)).
    pose proof (Rabs_pos (C * val x)). assert (/ 2 ^ 53 * Rabs (C * val x) <= 1 * Rabs (C * val x))%R by (apply Rmult_le_compat_r; lra). lra. }
  rewrite <- Vc in AB. destruct (mul_val c x Fc Fx AB) as (F & V). split; [exact F|]. rewrite V, Vc.
  replace (RN (C * val x) - r * val x)%R with ((RN (C * val x) - C * val x) + (C - r) * val x)%R by ring.
  eapply Rle_trans; [apply Rabs_triang|]. rewrite (Rabs_mult (C - r)), (Rabs_mult r), (Rabs_pos_eq r) by lra. rewrite Rabs_mult, (Rabs_pos_eq C) in RE by lra.
  pose proof (Rabs_pos (val x)) as PX.
  assert (CU : (C <= 2 * r)%R).
  { apply Rabs_def2b in ER || apply Rabs_le_inv in ER. lra. }
  assert (E1 : (/ 2 ^ 53 * (C * Rabs (val x)) <= / 2 ^ 52 * r * Rabs (val x))%R).
  { rewrite <- Rmult_assoc. apply Rmult_le_compat_r; [exact PX|]. lra. }
  assert (E2 : (Rabs (C - r) * Rabs (val x) <= / 2 ^ 52 * r * Rabs (val x))%R) by (apply Rmult_le_compat_r; assumption).
  lra.
Qed.
Lemma close C r : (0 < r)%R -> (- (/ 2 ^ 52 * r) <= C - r <= / 2 ^ 52 * r)%R -> (Rabs (C - r) <= / 2 ^ 52 * r)%R.
Proof. intros _ H. apply Rabs_le, H. Qed.
Theorem C82_units_doubles : forall pow,
  converts (@inch (Float64 pow)) points_per_inch /\ converts (@cm (Float64 pow)) (points_per_inch / 2.54)
  /\ converts (@mm (Float64 pow)) (points_per_inch / 25.4) /\ converts (@pc (Float64 pow)) (points_per_inch / 6)
  /\ forall x : b64, @pt (Float64 pow) x = x.
Proof.
  intros pow. unfold points_per_inch.
  assert (Z72 : forall z, (1 <= z <= 100)%Z -> fin (@nZ (Float64 pow) z) /\ val (@nZ (Float64 pow) z) = IZR z).
  { intros z Hz. unfold nZ. destruct (factor_val pow (inject_Z z)) as (A & B); cbn [inject_Z Qnum Qden]; try lia.
    - replace (IZR z / 1)%R with (IZR z) by field. apply repr_Z. lia.
    - replace (IZR z / 1)%R with (IZR z) by field. eapply Rle_lt_trans; [|exact top_53]. rewrite <- abs_IZR. apply IZR_le. lia.
    - split; [exact A|]. rewrite B. cbn [inject_Z Qnum Qden]. field. }
  assert (FR : forall m k, (Z.pos m < 2 ^ 53)%Z -> (0 <= k <= 60)%Z -> forall d, Z.pos d = (2 ^ k)%Z -> (Z.pos d < 2 ^ 53)%Z ->
     fin (@nQ (Float64 pow) (Z.pos m # d)) /\ val (@nQ (Float64 pow) (Z.pos m # d)) = (IZR (Z.pos m) / IZR (Z.pos d))%R).
  { intros m k Hm Hk d Hd Hd2. apply (factor_val pow (Z.pos m # d)); cbn [Qnum Qden]; try lia.
    - replace (IZR (Z.pos m) / IZR (Z.pos d))%R with (F2R (Float radix2 (Z.pos m) (- k))); [apply repr_F2R; lia|].
      unfold F2R. cbn [Fnum Fexp]. rewrite bpow_opp, Hd, <- (IZR_Zpower radix2 k) by lia. reflexivity.
    - assert (1 <= IZR (Z.pos d))%R by (apply (IZR_le 1); lia). assert (0 <= IZR (Z.pos m))%R by (apply (IZR_le 0); lia).
      unfold Rdiv. rewrite Rabs_mult, Rabs_pos_eq by lra. rewrite Rabs_pos_eq by (apply Rlt_le, Rinv_0_lt_compat; lra).
      apply Rle_lt_trans with (IZR (Z.pos m) * 1)%R.
      + apply Rmult_le_compat_l; [lra|]. rewrite <- Rinv_1. apply Rinv_le; lra.
      + rewrite Rmult_1_r. eapply Rlt_trans; [|exact top_53]. apply IZR_lt. exact Hm. }
  split; [|split; [|split; [|split]]]; [| | | |reflexivity].
  - destruct (Z72 72%Z ltac:(lia)) as (F & V). apply (mul_converts _ _ _ F V); try lra. apply close; lra.
  - destruct (FR 3989409118733707%positive 47%Z ltac:(lia) ltac:(lia) 140737488355328%positive ltac:(reflexivity) ltac:(lia)) as (F & V).
    apply (mul_converts _ _ _ F V); try lra. apply close; lra.
  - destruct (FR 6383054589973931%positive 51%Z ltac:(lia) ltac:(lia) 2251799813685248%positive ltac:(reflexivity) ltac:(lia)) as (F & V).
    apply (mul_converts _ _ _ F V); try lra. apply close; lra.
  - destruct (Z72 12%Z ltac:(lia)) as (F & V). apply (mul_converts _ _ _ F V); try lra. apply close; lra.
Qed.
Print Assumptions C82_units_doubles.

(** the hypotheses are met: 1 (and -0.5) are such numbers *)
Example C82_example : fin (bof 1) /\ (bpow radix2 (-900) <= Rabs (val (bof 1)) < bpow radix2 1000)%R
  /\ fin (Bopp bhalf) /\ (bpow radix2 (-900) <= Rabs (val (Bopp bhalf)) < bpow radix2 1000)%R.
Proof.
  destruct (of_val 1 ltac:(lia)) as (F & V). destruct half_val as (F2 & V2).
  assert (A : (bpow radix2 (-900) <= bpow radix2 (-1))%R) by (apply bpow_le; lia).
  assert (B : (bpow radix2 0 < bpow radix2 1000)%R) by (apply bpow_lt; lia). change (bpow radix2 0) with 1%R in B. change (bpow radix2 (-1)) with (/ 2)%R in A.
  split; [exact F|]. rewrite V, Rabs_pos_eq by lra. split; [lra|]. split; [unfold fin in *; rewrite is_finite_Bopp; exact F2|].
  unfold val in *. rewrite B2R_Bopp, V2, Rabs_Ropp, Rabs_pos_eq by lra. lra.
Qed.
(** whole numbers of inches or picas are converted exactly *)
Theorem C82_whole : forall pow (z : Z) (x : b64), (Z.abs z < 2 ^ 46)%Z -> fin x -> val x = IZR z ->
  val (@inch (Float64 pow) x) = IZR (72 * z) /\ val (@pc (Float64 pow) x) = IZR (12 * z).
Proof.
  intros pow z x Hz Fx Vx.
  assert (G : forall k, (1 <= k <= 72)%Z -> val (bmul (@nZ (Float64 pow) k) x) = IZR (k * z)).
  { intros k Hk. unfold nZ. destruct (factor_val pow (inject_Z k)) as (A & B); cbn [inject_Z Qnum Qden]; try lia.
    - replace (IZR k / 1)%R with (IZR k) by field. apply repr_Z. lia.
    - replace (IZR k / 1)%R with (IZR k) by field. eapply Rle_lt_trans; [|exact top_53]. rewrite <- abs_IZR. apply IZR_le. lia.
    - cbn [inject_Z Qnum Qden] in B. replace (IZR k / 1)%R with (IZR k) in B by field.
      assert (RP : repr (IZR (k * z))) by (apply repr_Z; nia).
      assert (X : RN (val (@nQ (Float64 pow) (inject_Z k)) * val x) = IZR (k * z)).
      { unfold inject_Z in *. rewrite B, Vx, <- mult_IZR. apply RN_id, RP. }
      destruct (mul_val _ x A Fx) as (_ & V).
      + rewrite X. eapply Rlt_trans; [|exact top_53]. rewrite <- abs_IZR. apply IZR_lt. nia.
      + rewrite V. exact X. }
  split; apply G; lia.
Qed.
Print Assumptions C82_whole.

(** Paper sizes: ISO 216 (in millimetres) and the American sizes (in inches), portrait, to
    within a point, except that A0 and A1 are up to four points (1.4 mm) too small. *)
Local Open Scope Q_scope.
Definition near_size (tol : Q) (p : @xy QcNum) (w h : Q) : Prop :=
  Qabs.Qabs (this (px p) - w) <= tol /\ Qabs.Qabs (this (py p) - h) <= tol.
Definition in_mm (q : Q) : Q := q * 72 / (254 # 10).
Definition in_inch (q : Q) : Q := q * 72.
Definition iso (tol : Q) (p : @xy QcNum) (w h : Z) : Prop := near_size tol p (in_mm (inject_Z w)) (in_mm (inject_Z h)).
Definition us (p : @xy QcNum) (w h : Q) : Prop := near_size 0 p (in_inch w) (in_inch h).
Theorem C82_paper_sizes :
  iso 4 A0 841 1189 /\ iso 4 A1 594 841 /\ iso 1 A2 420 594 /\ iso 1 A3 297 420 /\ iso 1 A4 210 297
  /\ iso 1 A5 148 210 /\ iso 1 A6 105 148
  /\ us letter (17 # 2) 11 /\ us legal (17 # 2) 14 /\ us tabloid 11 17 /\ us ledger 17 11
  /\ ~ iso (39 # 10) A0 841 1189 /\ ~ iso (39 # 10) A1 594 841.
Proof. repeat split; try (vm_compute; discriminate); intros [H1 H2]; vm_compute in H1, H2; try (apply H1; reflexivity); apply H2; reflexivity. Qed.
Print Assumptions C82_paper_sizes.
(** The named colours are those of CSS, also when written as a hexadecimal string. *)
Definition named (UNI : Uni) (c : @rgb QcNum) (hex : String.string) : Prop := @rgb_parse QcNum UNI (Common.CStr (bs hex)) = Ok c.
Local Open Scope string_scope.
Theorem C82_colours : forall UNI, named UNI red "#ff0000" /\ named UNI lime "#00ff00" /\ named UNI blue "#0000ff" /\ named UNI black "#000000"
  /\ named UNI white "#ffffff" /\ named UNI yellow "#FFFF00" /\ named UNI magenta "#ff00ff" /\ named UNI cyan "#00ffff".
Proof.
  intros UNI. unfold named, red, lime, blue, black, white, yellow, magenta, cyan, rgbZ.
  change (@nZ QcNum 1) with 1%Qc. change (@nZ QcNum 0) with 0%Qc. rewrite <- comp255_255, <- comp255_0.
  repeat split; (match goal with |- @rgb_parse _ _ (Common.CStr ?l) = _ => let l' := eval vm_compute in l in change l with l' end);
    apply rgb_parse_255; try reflexivity; lia.
Qed.
Print Assumptions C82_colours.
