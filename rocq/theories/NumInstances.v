(** * NumInstances: exact rationals and binary64 numbers obey the laws. *)
From Coq Require Import ZArith Bool QArith Qcanon Lia Reals Lra.
From Flocq Require Import Core IEEE754.BinarySingleNaN.
From Verif Require Import Base Num NumLaws Words Firstfit FirstfitWidth Float64 FloatProofs.
From Coq Require Import Lra.
Open Scope Z_scope.

Lemma nZ64 pow z : (Z.abs z < 2 ^ 53)%Z -> fin (@nZ (Float64 pow) z) /\ val (@nZ (Float64 pow) z) = IZR z.
Proof.
  intros H. unfold nZ. cbn [nQ Float64 inject_Z Qnum Qden]. destruct (of_val z H) as (F & V). destruct (of_val 1 ltac:(lia)) as (F1 & V1).
  assert (E : (val (bof z) / val (bof 1))%R = IZR z) by (rewrite V, V1; field).
  assert (RI : RN (IZR z) = IZR z) by (apply RN_id, repr_Z, H).
  destruct (div_val (bof z) (bof 1) F) as (D1 & D2).
  - rewrite V1. lra.
  - rewrite E, RI, <- V. apply val_top.
  - split; [exact D1|]. rewrite D2, E. exact RI.
Qed.
Lemma le64 pow (x y : @num (Float64 pow)) : fin x -> fin y -> le x y <-> (val x <= val y)%R.
Proof. apply le_val. Qed.
Lemma lt64 pow (x y : @num (Float64 pow)) : fin x -> fin y -> lt x y <-> (val x < val y)%R.
Proof. apply lt_val. Qed.
(** being below [most] lines, in doubles: the product is exact unless it overflows *)
Lemma most64 pow (h l : @num (Float64 pow)) : fin h -> fin l -> (0 < val l)%R ->
  lt h (nmul (nZ most) l) <-> (val h < IZR (2 ^ 50) * val l)%R.
Proof.
  intros H L L0. destruct (nZ64 pow most ltac:(unfold most; lia)) as (FM & VM).
  set (z := (IZR (2 ^ 50) * val l)%R). assert (RZ : repr z).
  { unfold z. replace (IZR (2 ^ 50)) with (bpow radix2 50) by (symmetry; apply (IZR_Zpower radix2 50); lia).
    destruct l as [s|s| |s m e K]; try discriminate; unfold val; cbn [B2R]; [rewrite Rmult_0_r; apply repr_0|].
    destruct (bounded_ints _ _ K) as (K1 & K2). rewrite Rmult_comm. unfold F2R. cbn [Fnum Fexp]. rewrite Rmult_assoc, <- bpow_plus.
    apply (repr_F2R (cond_Zopp s (Z.pos m)) (e + 50)); [|lia]. destruct s; cbn; lia. }
  assert (Z0 : (0 < z)%R) by (unfold z; apply Rmult_lt_0_compat; [apply IZR_lt; lia|exact L0]).
  assert (PZ : (val (@nZ (Float64 pow) most) * val l = z)%R) by (rewrite VM; reflexivity).
  destruct (Rlt_or_le (Rabs z) top) as [T|T].
  - destruct (mul_val (@nZ (Float64 pow) most) l FM L) as (P1 & P2).
    + rewrite PZ, RN_id by exact RZ. exact T.
    + rewrite (lt64 pow) by auto. change (nmul (nZ most) l) with (bmul (@nZ (Float64 pow) most) l). rewrite P2, PZ, RN_id by exact RZ. reflexivity.
  - pose proof (Bmult_correct 53 1024 prec_ok emax_ok mode_NE (@nZ (Float64 pow) most) l) as B.
    change (round radix2 (SpecFloat.fexp 53 1024) (round_mode mode_NE) (B2R (@nZ (Float64 pow) most) * B2R l)) with (RN (val (@nZ (Float64 pow) most) * val l)) in B.
    rewrite PZ, RN_id, Rlt_bool_false in B by (exact RZ || exact T).
    assert (SG : xorb (Bsign (@nZ (Float64 pow) most)) (Bsign l) = false).
    { replace (Bsign (@nZ (Float64 pow) most)) with false by (vm_compute; reflexivity).
      destruct l as [s|s| |[] m e K]; try discriminate; [|reflexivity].
      exfalso. revert L0. unfold val. cbn [B2R cond_Zopp]. intros L0. apply Rlt_not_le in L0. apply L0, F2R_le_0. cbn. lia. }
    rewrite SG in B. cbn [binary_overflow overflow_to_inf] in B. change (bmul (@nZ (Float64 pow) most) l) with (nmul (nZ most) l) in *.
    assert (HT : (val h < z)%R). { rewrite Rabs_pos_eq in T by lra. eapply Rlt_le_trans; [|exact T]. eapply Rle_lt_trans; [apply Rle_abs|apply val_top]. }
    split; [intros _; exact HT|intros _]. unfold lt. cbn [nltb Float64]. unfold Bltb.
    change (B2SF (nmul (nZ most) l)) with (B2SF (Bmult mode_NE (@nZ (Float64 pow) most) l)). rewrite B. destruct h as [?|?| |[]? ? ?]; try discriminate; reflexivity.
Qed.
Theorem Float64_lawful : forall pow, @lawful (Float64 pow) fin.
Proof.
  intros pow. destruct (nZ64 pow 0 ltac:(lia)) as (F0 & V0). change (fin (@n0 (Float64 pow))) in F0. change (val (@n0 (Float64 pow)) = 0%R) in V0.
  constructor.
  - exact F0.
  - intros a A. apply (le64 pow); auto. lra.
  - intros a b c A B C. rewrite !(le64 pow); auto. lra.
  - intros a b A B. rewrite (lt64 pow), (le64 pow); auto. lra.
  - intros a b A B. rewrite (lt64 pow), (le64 pow); auto. lra.
  - intros a A. rewrite (lt64 pow), V0; auto. intros H. destruct (neqb a n0) eqn:E; auto. apply eq_val in E; auto. change (val a = val (@n0 (Float64 pow))) in E. lra.
  - intros a b c A B. rewrite (le64 pow) by auto. intros H L. assert (CN : fin c \/ c = B754_infinity false \/ ~ lt b c).
    { destruct c as [s|[]| |s m e K]; [left; reflexivity| | auto | |left; reflexivity];
        right; right; unfold lt; cbn [nltb Float64]; destruct b as [?|?| |?? ? ?]; try discriminate; cbn; intros; discriminate. }
    destruct CN as [C|[-> |C]]; [|destruct a as [?|?| |[]? ? ?]; try discriminate; reflexivity|contradiction].
    apply (lt64 pow) in L; auto. apply (lt64 pow); auto. lra.
  - intros h l H L. rewrite (le64 pow), !(lt64 pow n0), V0 by auto. intros H0 L0 S.
    assert (SR : (val h < IZR (2 ^ 50) * val l)%R) by (apply (most64 pow); auto).
    change (@nfloordiv (Float64 pow) h l) with (bfloordiv h l). rewrite (floordiv_val h l H L H0 L0 SR). set (q := Zfloor (val h / val l)).
    assert (Q1 : (IZR q * val l <= val h)%R).
    { apply Rle_trans with (val h / val l * val l)%R; [apply Rmult_le_compat_r; [lra|apply Zfloor_lb]|]. right. field. lra. }
    assert (Q0 : 0 <= q). { apply Zfloor_lub. apply Rmult_le_pos; [lra|]. apply Rlt_le, Rinv_0_lt_compat, L0. }
    assert (QB : q < 2 ^ 50).
    { apply lt_IZR. apply Rmult_lt_reg_r with (val l); auto. lra. }
    split; [exact Q0|]. split.
    + rewrite (le64 pow) by auto. intros LH. apply Zfloor_lub. apply Rmult_le_reg_r with (val l); auto. unfold Rdiv. rewrite Rmult_assoc, Rinv_l by lra. lra.
    + intros n NB. destruct (nZ64 pow n ltac:(lia)) as (FN & VN).
      assert (NR : (0 <= IZR n * val l <= val h)%R).
      { split; [apply Rmult_le_pos; [apply IZR_le; lia|lra]|]. eapply Rle_trans; [|exact Q1]. apply Rmult_le_compat_r; [lra|]. apply IZR_le. lia. }
      assert (RB : (0 <= RN (IZR n * val l) <= val h)%R).
      { split; [apply RN_ge_repr; [apply repr_0|lra]|apply RN_le_repr; [apply val_repr|lra]]. }
      destruct (mul_val (@nZ (Float64 pow) n) l FN L) as (P1 & P2).
      { change (val (@nZ (Float64 pow) n)) with (val (@nZ (Float64 pow) n)). rewrite VN, Rabs_pos_eq by lra. eapply Rle_lt_trans; [apply RB|]. eapply Rle_lt_trans; [apply Rle_abs|apply val_top]. }
      change (val (@nZ (Float64 pow) n)) with (val (@nZ (Float64 pow) n)) in P2. rewrite VN in P2.
      change (@nmul (Float64 pow) (nZ n) l) with (bmul (@nZ (Float64 pow) n) l). split; [exact P1|]. rewrite !(le64 pow) by auto. rewrite P2, V0. lra.
  - intros a b A B. rewrite !(le64 pow), V0 by auto. intros B0 BA.
    assert (RB : (0 <= RN (val a - val b) <= val a)%R).
    { split; [apply RN_ge_repr; [apply repr_0|lra]|apply RN_le_repr; [apply val_repr|lra]]. }
    destruct (sub_val a b A B) as (S1 & S2).
    { rewrite Rabs_pos_eq by lra. eapply Rle_lt_trans; [apply RB|]. eapply Rle_lt_trans; [apply Rle_abs|apply val_top]. }
    change (@nsub (Float64 pow) a b) with (bsub a b). split; [exact S1|]. rewrite !(le64 pow) by auto. rewrite S2, V0. lra.
Qed.
Theorem QcNum_lawful : @lawful QcNum (fun _ => True).
Proof.
  constructor; auto.
  - intros a _. apply Qcleb_le. apply Qcle_refl.
  - intros a b c _ _ _ H K. apply Qcleb_le in H, K. apply Qcleb_le. eapply Qcle_trans; eauto.
  - intros a b _ _. unfold lt, le. cbn [nltb nleb QcNum]. unfold Qcltb, Qcleb. destruct (Qle_bool _ _); cbn; intuition congruence.
  - intros a b _ _ H. apply Qcltb_lt in H. apply Qcleb_le. apply Qclt_le_weak, H.
  - intros a _ H. apply Qcltb_lt in H. apply Qceqb_neq. intros ->. apply (Qclt_not_eq _ _ H). reflexivity.
  - intros a b c _ _ H K. apply Qcleb_le in H. apply Qcltb_lt in K. apply Qcltb_lt. eapply Qcle_lt_trans; eauto.
  - intros h l _ _ H L _. apply Qcleb_le in H. apply Qcltb_lt in L. change (@n0 QcNum) with 0%Qc in *.
    assert (F : forall n, (Q2Qc (inject_Z n) * l <= h)%Qc -> n <= @nfloordiv QcNum h l) by (intros n; apply floor_nonneg, L).
    split; [|split].
    + apply F. change (Q2Qc (inject_Z 0)) with 0%Qc. rewrite Qcmult_0_l. exact H.
    + intros LH. apply Qcleb_le in LH. apply F. change (Q2Qc (inject_Z 1)) with 1%Qc. rewrite Qcmult_1_l. exact LH.
    + intros n [N0 N1]. split; [exact I|]. split; apply Qcleb_le.
      * change (@nmul QcNum (nZ n) l) with (Q2Qc (inject_Z n) * l)%Qc. change (@n0 QcNum) with 0%Qc. rewrite <- (Qcmult_0_l l). apply Qcmult_le_compat_r; [|apply Qclt_le_weak, L].
        unfold Qcle. rewrite (this_Q2Qc (inject_Z n)). rewrite Zle_Qle in N0. exact N0.
      * apply (floor_lines h l n L N1).
  - intros a b _ _ B0 BA. apply Qcleb_le in B0, BA. change (@n0 QcNum) with 0%Qc in *. change (@nsub QcNum a b) with (a - b)%Qc.
    split; [exact I|]. split; apply Qcleb_le; change (@n0 QcNum) with 0%Qc; qc.
Qed.
