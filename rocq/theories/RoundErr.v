(** * RoundErr: one operation on doubles, with all numbers below a power of two. *)
From Coq Require Import ZArith Bool Reals.
From Flocq Require Import Core IEEE754.BinarySingleNaN Relative.
From Verif Require Import Base Num Float64 FloatProofs NumInstances.
From Coq Require Import Lra Lia.
Open Scope R_scope.
Local Notation fexp := (SpecFloat.fexp 53 1024).
Local Instance vexp : Valid_exp fexp := FLT_exp_valid (-1074) 53.

(** the bound 2^k, and half a unit in the last place of numbers below it *)
Definition cap (k : Z) : R := bpow radix2 k.
Definition ulp2 (k : Z) : R := bpow radix2 (k - 53).
Definition sane (k : Z) : Prop := (-1000 <= k <= 1000)%Z.
Lemma cap_pos k : 0 < cap k. Proof. apply bpow_gt_0. Qed.
Lemma ulp2_pos k : 0 < ulp2 k. Proof. apply bpow_gt_0. Qed.

Lemma RN_near k r : sane k -> Rabs r <= cap k -> Rabs (RN r - r) <= ulp2 k.
Proof.
  intros S H. destruct (Req_dec (Rabs r) (cap k)) as [EQ|NE].
  - assert (R0 : repr r).
    { unfold Rabs in EQ. assert (G : repr (cap k)).
      { unfold repr, cap. apply generic_format_bpow. cbv [SpecFloat.fexp SpecFloat.emin]. unfold sane in S. lia. }
      destruct (Rcase_abs r) as [N|N]; [|rewrite EQ; exact G].
      replace r with (- cap k) by lra. apply generic_format_opp, G. }
    rewrite RN_id by exact R0. replace (r - r) with 0 by ring. rewrite Rabs_R0. apply Rlt_le, ulp2_pos.
  - assert (L : Rabs r < bpow radix2 k) by (unfold cap in *; lra).
    unfold RN. eapply Rle_trans; [apply error_le_half_ulp; auto with typeclass_instances|].
    assert (U : ulp radix2 fexp r <= bpow radix2 (k - 52)).
    { destruct (Req_dec r 0) as [->|N0].
      - rewrite ulp_FLT_0 || idtac. unfold ulp. rewrite Req_bool_true by reflexivity.
        destruct (negligible_exp_FLT (-1074) 53) as (n & E & I). change fexp with (FLT_exp (-1074) 53). rewrite E.
        apply bpow_le. unfold FLT_exp in *. unfold sane in S. lia.
      - rewrite ulp_neq_0 by exact N0. apply bpow_le. unfold cexp.
        assert (M : (mag radix2 r <= k)%Z) by (apply mag_le_bpow; auto).
        cbv [SpecFloat.fexp SpecFloat.emin]. unfold sane in S. lia. }
    unfold ulp2. replace (bpow radix2 (k - 53)) with (/ 2 * bpow radix2 (k - 52)).
    + apply Rmult_le_compat_l; [lra|exact U].
    + replace (k - 52)%Z with (k - 53 + 1)%Z by ring. rewrite bpow_plus. change (bpow radix2 1) with 2. field.
Qed.
Lemma RN_small k r : sane k -> Rabs r <= cap k -> Rabs (RN r) < top.
Proof.
  intros S H. assert (N := RN_near k r S H).
  assert (A : Rabs (RN r) <= cap k + ulp2 k).
  { replace (RN r) with ((RN r - r) + r) by ring. eapply Rle_trans; [apply Rabs_triang|lra]. }
  eapply Rle_lt_trans; [exact A|]. unfold cap, ulp2, top, sane in *.
  assert (B1 : bpow radix2 k <= bpow radix2 1000) by (apply bpow_le; lia).
  assert (B2 : bpow radix2 (k - 53) <= bpow radix2 1000) by (apply bpow_le; lia).
  assert (B3 : bpow radix2 1001 < bpow radix2 1024) by (apply bpow_lt; lia).
  replace 1001%Z with (1000 + 1)%Z in B3 by lia. rewrite bpow_plus in B3. change (bpow radix2 1) with 2 in B3. lra.
Qed.
Definition close (x : b64) (r e : R) : Prop := fin x /\ Rabs (val x - r) <= e.
Lemma add_near k x y : sane k -> fin x -> fin y -> Rabs (val x + val y) <= cap k -> close (badd x y) (val x + val y) (ulp2 k).
Proof. intros S X Y H. destruct (add_val x y X Y (RN_small k _ S H)) as (F & E). split; [exact F|]. rewrite E. apply RN_near; auto. Qed.
Lemma sub_near k x y : sane k -> fin x -> fin y -> Rabs (val x - val y) <= cap k -> close (bsub x y) (val x - val y) (ulp2 k).
Proof. intros S X Y H. destruct (sub_val x y X Y (RN_small k _ S H)) as (F & E). split; [exact F|]. rewrite E. apply RN_near; auto. Qed.
Lemma mul_near k x y : sane k -> fin x -> fin y -> Rabs (val x * val y) <= cap k -> close (bmul x y) (val x * val y) (ulp2 k).
Proof. intros S X Y H. destruct (mul_val x y X Y (RN_small k _ S H)) as (F & E). split; [exact F|]. rewrite E. apply RN_near; auto. Qed.
Lemma div_near k x y : sane k -> fin x -> val y <> 0 -> Rabs (val x / val y) <= cap k -> close (bdiv x y) (val x / val y) (ulp2 k).
Proof. intros S X Y H. destruct (div_val x y X Y (RN_small k _ S H)) as (F & E). split; [exact F|]. rewrite E. apply RN_near; auto. Qed.
(** from distances to the exact values of the operands *)
Lemma abs_in a b : - b <= a -> a <= b -> Rabs a <= b.
Proof. intros. apply Rabs_le. lra. Qed.
Lemma abs_out a b : Rabs a <= b -> - b <= a <= b.
Proof. unfold Rabs. destruct (Rcase_abs a); lra. Qed.
Lemma close_weak x r e e' : e <= e' -> close x r e -> close x r e'.
Proof. intros H (F & E). split; [exact F|lra]. Qed.
Lemma close_add k x y a b e f : sane k -> close x a e -> close y b f -> Rabs (a + b) + e + f <= cap k ->
  close (badd x y) (a + b) (e + f + ulp2 k).
Proof.
  intros S (X & E) (Y & F) H. apply abs_out in E. apply abs_out in F.
  assert (A : Rabs (val x + val y) <= cap k) by (assert (AB := abs_out _ _ (Rle_refl (Rabs (a + b)))); apply abs_in; lra).
  destruct (add_near k x y S X Y A) as (Z & G). split; [exact Z|]. apply abs_out in G. apply abs_in; lra.
Qed.
Lemma close_sub k x y a b e f : sane k -> close x a e -> close y b f -> Rabs (a - b) + e + f <= cap k ->
  close (bsub x y) (a - b) (e + f + ulp2 k).
Proof.
  intros S (X & E) (Y & F) H. apply abs_out in E. apply abs_out in F.
  assert (A : Rabs (val x - val y) <= cap k) by (assert (AB := abs_out _ _ (Rle_refl (Rabs (a - b)))); apply abs_in; lra).
  destruct (sub_near k x y S X Y A) as (Z & G). split; [exact Z|]. apply abs_out in G. apply abs_in; lra.
Qed.
(** multiplication and division by an exact number *)
Lemma close_mul k x y a e : sane k -> close x a e -> fin y -> Rabs a * Rabs (val y) + e * Rabs (val y) <= cap k ->
  close (bmul x y) (a * val y) (e * Rabs (val y) + ulp2 k).
Proof.
  intros S (X & E) Y H.
  assert (D : Rabs (val x * val y - a * val y) <= e * Rabs (val y)).
  { rewrite <- Rmult_minus_distr_r, Rabs_mult. apply Rmult_le_compat_r; [apply Rabs_pos|exact E]. }
  assert (A : Rabs (val x * val y) <= cap k).
  { replace (val x * val y) with ((val x * val y - a * val y) + a * val y) by ring. eapply Rle_trans; [apply Rabs_triang|]. rewrite (Rabs_mult a). lra. }
  destruct (mul_near k x y S X Y A) as (Z & G). split; [exact Z|]. apply abs_out in G. apply abs_out in D. apply abs_in; lra.
Qed.
Lemma close_div k x y a e : sane k -> close x a e -> 1 <= Rabs (val y) -> Rabs a + e <= cap k ->
  close (bdiv x y) (a / val y) (e + ulp2 k).
Proof.
  intros S (X & E) Y H. assert (N0 : val y <> 0) by (intros C; rewrite C, Rabs_R0 in Y; lra).
  assert (IV : 0 < / Rabs (val y) <= 1).
  { split; [apply Rinv_0_lt_compat; lra|]. rewrite <- Rinv_1. apply Rinv_le_contravar; lra. }
  assert (Q : forall r, Rabs (r / val y) <= Rabs r).
  { intros r. unfold Rdiv. rewrite Rabs_mult, Rabs_inv. rewrite <- (Rmult_1_r (Rabs r)) at 2. apply Rmult_le_compat_l; [apply Rabs_pos|lra]. }
  assert (D : Rabs (val x / val y - a / val y) <= e).
  { replace (val x / val y - a / val y) with ((val x - a) / val y) by (field; exact N0). eapply Rle_trans; [apply Q|exact E]. }
  assert (A : Rabs (val x / val y) <= cap k).
  { replace (val x / val y) with ((val x / val y - a / val y) + a / val y) by ring. eapply Rle_trans; [apply Rabs_triang|].
    assert (B := Q a). lra. }
  destruct (div_near k x y S X N0 A) as (Z & G). split; [exact Z|]. apply abs_out in G. apply abs_out in D. apply abs_in; lra.
Qed.
(** sums *)
Fixpoint Rsum (l : list R) : R := match l with [] => 0 | x :: r => x + Rsum r end.
Lemma Rsum_app a b : Rsum (a ++ b) = Rsum a + Rsum b.
Proof. induction a as [|x a IH]; cbn; [ring|rewrite IH; ring]. Qed.
Lemma Rsum_abs l : Rabs (Rsum l) <= Rsum (map Rabs l).
Proof. induction l as [|x l IH]; cbn; [rewrite Rabs_R0; lra|]. eapply Rle_trans; [apply Rabs_triang|lra]. Qed.
Lemma sum_near k e pow (l : list b64) (rs : list R) : sane k -> 0 <= e ->
  Forall2 (fun x r => close x r e) l rs ->
  forall acc a d, close acc a d -> 0 <= d -> Rabs a + d + Rsum (map Rabs rs) + INR (List.length l) * (e + ulp2 k) <= cap k ->
  close (fold_left (@nadd (Float64 pow)) l acc) (a + Rsum rs) (d + INR (List.length l) * (e + ulp2 k)).
Proof.
  intros S E0 F. assert (U := ulp2_pos k). induction F as [|x r l rs X F IH]; intros acc a d A D0 H.
  - cbn in *. replace (a + 0) with a by ring. replace (d + 0 * (e + ulp2 k)) with d by ring. exact A.
  - cbn [fold_left map Rsum List.length] in *. rewrite S_INR in *.
    assert (P : 0 <= INR (List.length l) * (e + ulp2 k)) by (apply Rmult_le_pos; [apply pos_INR|lra]).
    assert (P2 : 0 <= Rsum (map Rabs rs)) by (eapply Rle_trans; [apply Rabs_pos|apply Rsum_abs]).
    assert (T := Rabs_triang a r).
    replace (a + (r + Rsum rs)) with ((a + r) + Rsum rs) by ring.
    replace (d + (INR (List.length l) + 1) * (e + ulp2 k)) with ((d + e + ulp2 k) + INR (List.length l) * (e + ulp2 k)) by ring.
    apply IH; [|lra|].
    + change (@nadd (Float64 pow) acc x) with (badd acc x). apply close_add; auto. nra.
    + nra.
Qed.
Lemma nsum_near k e pow (l : list b64) (rs : list R) : sane k -> 0 <= e ->
  Forall2 (fun x r => close x r e) l rs ->
  Rsum (map Rabs rs) + INR (List.length l) * (e + ulp2 k) <= cap k ->
  close (@nsum (Float64 pow) l) (Rsum rs) (INR (List.length l) * (e + ulp2 k)).
Proof.
  intros S E0 F H. destruct (nZ64 pow 0 ltac:(lia)) as (F0 & V0).
  assert (A : close (@n0 (Float64 pow)) 0 0).
  { split; [exact F0|]. change (@n0 (Float64 pow)) with (@nZ (Float64 pow) 0). rewrite V0. replace (0 - 0) with 0 by ring. rewrite Rabs_R0. lra. }
  replace (Rsum rs) with (0 + Rsum rs) by ring. replace (INR _ * _) with (0 + INR (List.length l) * (e + ulp2 k)) by ring.
  unfold nsum. apply sum_near; auto; [lra|]. rewrite Rabs_R0. lra.
Qed.
