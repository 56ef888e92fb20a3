(** * FloatJustify: justified lines in doubles: extending the spaces of a line adds the space
    that was left, up to rounding errors. *)
From Coq Require Import ZArith Bool Reals.
From Flocq Require Import Core IEEE754.BinarySingleNaN.
From Verif Require Import Base Num Float64 FloatProofs NumInstances RoundErr Fonts State TextSpec StateProofs
  Words WordsSpec WordProofs WordOps LineSpec Firstfit FirstfitProofs FirstfitWidth FloatLines FloatWidths.
From Coq Require Import Lra Lia.
Open Scope R_scope.
Section Just.
Context (pow : b64 -> nat -> b64) {ENV : Env (Float64 pow)}.
#[local] Hint Extern 0 Num => exact (Float64 pow) : typeclass_instances.
Notation wl_end := (wl_end pow).
Notation wl_adv := (wl_adv pow (box_true pow) (space_true pow)).
Notation line_adv := (line_adv pow (box_true pow) (space_true pow)).
Definition size_ok (z : @num (Float64 pow)) : Prop := fin z /\ 6 <= val z <= 24.
Definition u : R := ulp2 25.
Lemma u_val : u = / IZR (2 ^ 28).
Proof. unfold u, ulp2. change (25 - 53)%Z with (- (28))%Z. rewrite bpow_opp. rewrite <- (IZR_Zpower radix2) by lia. reflexivity. Qed.
Lemma cap25 : cap 25 = 33554432.
Proof. unfold cap. rewrite <- (IZR_Zpower radix2) by lia. reflexivity. Qed.
Lemma sane25 : sane 25. Proof. unfold sane. lia. Qed.
(** a word whose space can be stretched *)
Definition end_fine (w : wordlike) : Prop :=
  match wl_end w with
  | Some p => fin (ts_kern (fst p)) /\ Rabs (val (ts_kern (fst p))) <= 16000 /\ size_ok (st_size (snd p))
  | None => True
  end.
Lemma end_tail w : match wl_end w with Some p => wl_tail w = Some (fst p) | None => wl_tail w = None end.
Proof. induction w as [b|w|w IH c]; cbn; auto. destruct (w_tail w); reflexivity. Qed.
Lemma stretch_near t (a : @num (Float64 pow)) st t' : fin (ts_kern t) -> Rabs (val (ts_kern t)) <= 16000 -> size_ok (st_size st) ->
  fin a -> Rabs (val a) <= 90000 -> tspace_stretch t a st = Ok t' ->
  Rabs (space_true pow (t', st) - (space_true pow (t, st) + val a)) <= 25 * u.
Proof.
  intros K1 K2 (S1 & S2 & S3) FA HA E. unfold tspace_stretch, pdiv in E. destruct (neqb _ _); [discriminate|]. cbn [bind] in E. apply Ok_inj in E. subst t'.
  set (sz := st_size st) in *. destruct (n1000_val pow) as (F1 & V1). assert (U := u_val). assert (C := cap25).
  assert (UP : 0 < u <= / 1000) by (rewrite U; cbn [Z.pow Z.pow_pos Pos.iter]; cbn -[IZR Rplus Rmult Rinv Rle]; lra).
  assert (QA : Rabs (val a / val sz) <= 15000).
  { unfold Rdiv. rewrite Rabs_mult, Rabs_inv, (Rabs_right (val sz)) by lra. apply (Rmult_le_reg_r (val sz)); [lra|].
    rewrite Rmult_assoc, Rinv_l, Rmult_1_r by lra. nra. }
  assert (Q1 : close (bdiv a sz) (val a / val sz) u) by (apply (div_near 25); auto; [apply sane25|lra|lra]).
  assert (Q2 : close (bmul (bdiv a sz) (@n1000 (Float64 pow))) (val a / val sz * 1000) (1001 * u)).
  { rewrite <- V1. eapply close_weak; [|apply (close_mul 25 _ _ _ _ sane25 Q1 F1)]; rewrite V1, (Rabs_right 1000) by lra; fold u; lra. }
  assert (Z : Rabs (val a / val sz * 1000) <= 15000000) by (rewrite Rabs_mult, (Rabs_right 1000) by lra; lra).
  assert (T := Rabs_triang (val (ts_kern t)) (val a / val sz * 1000)).
  assert (Q3 : close (badd (ts_kern t) (bmul (bdiv a sz) (@n1000 (Float64 pow)))) (val (ts_kern t) + val a / val sz * 1000) (0 + 1001 * u + u)).
  { apply (close_add 25 _ _ _ _ _ _ sane25 (exact_close _ K1) Q2). lra. }
  unfold space_true. cbn [fst snd ts_kern]. fold sz.
  change (nadd (ts_kern t) (nmul (ndiv a sz) n1000)) with (badd (ts_kern t) (bmul (bdiv a sz) (@n1000 (Float64 pow)))).
  destruct Q3 as (_ & Q3). set (kk := val (badd _ _)) in *. match goal with |- context [((?w0 + kk) / 1000)] => set (w := w0) end.
  replace ((w + kk) / 1000 * val sz - ((w + val (ts_kern t)) / 1000 * val sz + val a))
    with ((kk - (val (ts_kern t) + val a / val sz * 1000)) * (val sz / 1000)) by (field; lra).
  rewrite Rabs_mult, (Rabs_right (val sz / 1000)) by lra.
  apply Rle_trans with ((0 + 1001 * u + u) * (24 / 1000)); [apply Rmult_le_compat; [apply Rabs_pos|lra|exact Q3|lra]|lra].
Qed.
Definition has (w : wordlike) : bool := match wl_tail w with Some _ => true | None => false end.
Lemma extend_near w : forall (a : @num (Float64 pow)) w', end_fine w -> fin a -> Rabs (val a) <= 90000 -> wl_extend_tail w a = Ok w' ->
  wl_boxes w' = wl_boxes w /\ Rabs (wl_adv w' - (wl_adv w + if has w then val a else 0)) <= if has w then 25 * u else 0.
Proof.
  assert (UP : 0 < u) by apply ulp2_pos.
  assert (ZZ : forall r, Rabs (r - (r + 0)) <= 0) by (intros r; replace (r - (r + 0)) with 0 by ring; rewrite Rabs_R0; lra).
  assert (NT : forall (w : wordlike) (a : @num (Float64 pow)), fin a -> ntruthy a = false ->
    Rabs (wl_adv w - (wl_adv w + if has w then val a else 0)) <= if has w then 25 * u else 0).
  { intros v a FA N. rewrite (no_value pow a FA N). destruct (has v); [eapply Rle_trans; [apply ZZ|lra]|apply ZZ]. }
  induction w as [b|w|w IH c]; intros a w' TF FA HA E; cbn [wl_extend_tail] in E.
  - apply Ok_inj in E. subst w'. split; [reflexivity|]. apply ZZ.
  - apply rmap_inv in E as (v & E & ->). unfold word_extend_tail in E. unfold has. cbn [wl_tail].
    destruct (w_tail w) as [t|] eqn:T; [|apply Ok_inj in E; subst v; split; [reflexivity|apply ZZ]].
    destruct (ntruthy a) eqn:N.
    2:{ apply Ok_inj in E. subst v. split; [reflexivity|]. assert (X := NT (WWord w) a FA N). unfold has in X. cbn [wl_tail] in X. rewrite T in X. exact X. }
    apply rmap_inv in E as (t' & E & ->). split; [reflexivity|]. unfold end_fine in TF. cbn [FloatLines.wl_end] in TF. rewrite T in TF. cbn [option_map] in TF.
    destruct TF as (K1 & K2 & K3). apply (stretch_near _ _ _ _ K1 K2 K3 FA HA) in E.
    unfold FloatLines.wl_adv. cbn [wl_boxes FloatLines.wl_end w_boxes w_tail w_state]. rewrite T. cbn [option_map tail_adv].
    set (r := Rsum _). replace (r + space_true pow (t', w_state w) - (r + space_true pow (t, w_state w) + val a)) with (space_true pow (t', w_state w) - (space_true pow (t, w_state w) + val a)) by ring. exact E.
  - unfold has. cbn [wl_tail]. destruct (wl_tail w) as [t|] eqn:T; [|apply Ok_inj in E; subst w'; split; [reflexivity|apply ZZ]].
    destruct (ntruthy a) eqn:N.
    2:{ apply Ok_inj in E. subst w'. split; [reflexivity|]. assert (X := NT (WCmd w c) a FA N). unfold has in X. cbn [wl_tail] in X. rewrite T in X. exact X. }
    apply rmap_inv in E as (v & E & ->). destruct (IH a v TF FA HA E) as (I1 & I2). unfold has in I2. rewrite T in I2. split; [exact I1|exact I2].
Qed.
(** ** a justified line *)
Definition tails (l : list wordlike) : nat := List.length (filter has l).
Definition exact_sizes (l : list wordlike) : R := Rsum (map (fun w => val (st_size (wl_state w))) (filter has l)).
Lemma tails_cons w l : tails (w :: l) = ((if has w then 1 else 0) + tails l)%nat.
Proof. unfold tails. cbn. destruct (has w); reflexivity. Qed.
Lemma sizes_cons w l : exact_sizes (w :: l) = (if has w then val (st_size (wl_state w)) else 0) + exact_sizes l.
Proof. unfold exact_sizes. cbn. destruct (has w); cbn; ring. Qed.
Lemma extend_all (ws : list wordlike) (per : @num (Float64 pow)) ws' : fin per -> Rabs (val per) <= 3500 ->
  Forall end_fine ws -> Forall (fun w => size_ok (st_size (wl_state w))) ws ->
  mapM (fun w => wl_extend_tail w (nmul per (st_size (wl_state w)))) ws = Ok ws' ->
  Rabs (line_adv ws' - (line_adv ws + val per * exact_sizes ws)) <= INR (tails ws) * (26 * u).
Proof.
  intros FP HP. assert (U := u_val). assert (C := cap25). assert (UP : 0 < u) by apply ulp2_pos.
  assert (UB : u <= / 1000) by (rewrite U; cbn [Z.pow Z.pow_pos Pos.iter]; cbn -[IZR Rplus Rmult Rinv Rle]; lra).
  revert ws'. induction ws as [|w r IH]; intros ws' EF SF E; cbn [mapM] in E.
  - apply Ok_inj in E. subst ws'. unfold FloatLines.line_adv, exact_sizes, tails. cbn. replace (0 - (0 + val per * 0)) with 0 by ring. rewrite Rabs_R0. lra.
  - apply bind_ok in E as (w' & E1 & E). apply bind_ok in E as (r' & E2 & E). apply Ok_inj in E. subst ws'.
    specialize (IH r' (Forall_inv_tail EF) (Forall_inv_tail SF) E2). assert (S0 := Forall_inv SF). cbn beta in S0. destruct S0 as (S1 & S2 & S3).
    set (s := st_size (wl_state w)) in *.
    assert (B : Rabs (val per * val s) <= 84000).
    { rewrite Rabs_mult, (Rabs_right (val s)) by lra. apply Rle_trans with (3500 * 24); [apply Rmult_le_compat; try lra; apply Rabs_pos|lra]. }
    destruct (mul_near 25 per s sane25 FP S1 ltac:(lra)) as (M1 & M2).
    change (bmul per s) with (nmul per s) in *. fold u in M2.
    assert (MB : Rabs (val (nmul per s)) <= 90000) by (apply abs_out in M2; apply abs_out in B; apply abs_in; lra).
    destruct (extend_near w _ w' (Forall_inv EF) M1 MB E1) as (_ & X). rewrite tails_cons, sizes_cons, plus_INR. fold s.
    change (line_adv (w' :: r')) with (wl_adv w' + line_adv r'). change (line_adv (w :: r)) with (wl_adv w + line_adv r).
    apply abs_out in X. apply abs_out in IH. apply abs_out in M2. set (am := val (nmul per s)) in *.
    rewrite Rmult_plus_distr_l, Rmult_plus_distr_r.
    destruct (has w); cbn [INR] in *; apply abs_in; lra.
Qed.
Lemma sizes_near (ws : list wordlike) : Forall (fun w => size_ok (st_size (wl_state w))) ws -> (Z.of_nat (tails ws) <= 10000)%Z ->
  close (tail_sizes ws) (exact_sizes ws) (INR (tails ws) * ulp2 18) /\ 6 * INR (tails ws) <= exact_sizes ws <= 24 * INR (tails ws).
Proof.
  intros F N. assert (B : 6 * INR (tails ws) <= exact_sizes ws <= 24 * INR (tails ws)).
  { clear N. induction F as [|w r (H1 & H2 & H3) _ IH]; [unfold exact_sizes, tails; cbn; lra|]. rewrite sizes_cons, tails_cons, plus_INR. destruct (has w); cbn [INR] in *; lra. }
  split; [|exact B]. unfold tail_sizes, exact_sizes, tails.
  change (fun w : wordlike => match wl_tail w with Some _ => true | None => false end) with has.
  assert (FF : Forall (fun w => size_ok (st_size (wl_state w))) (filter has ws)) by (apply Forall_forall; intros w I; apply filter_In in I as (I & _); rewrite Forall_forall in F; auto).
  rewrite <- (map_length (fun w => st_size (wl_state w)) (filter has ws)).
  replace (ulp2 18) with (0 + ulp2 18) by ring.
  apply nsum_near; [unfold sane; lia|lra| |].
  - clear -FF. induction FF as [|w r (H1 & _) _ IH]; cbn; constructor; [apply exact_close, H1|exact IH].
  - rewrite map_length. assert (E : Rsum (map Rabs (map (fun w => val (st_size (wl_state w))) (filter has ws))) = exact_sizes ws).
    { unfold exact_sizes. clear -FF. induction FF as [|w r (_ & H & _) _ IH]; [reflexivity|]. cbn [map Rsum]. rewrite IH, (Rabs_right (val _)) by lra. reflexivity. }
    rewrite E. fold (tails ws). assert (NB : INR (tails ws) <= 10000) by (rewrite INR_IZR_INZ; apply IZR_le; lia).
    unfold cap, ulp2. change (18 - 53)%Z with (- (35))%Z. rewrite bpow_opp, <- !(IZR_Zpower radix2) by lia. cbn [Zpower Z.pow Z.pow_pos Pos.iter].
    assert (P0 := pos_INR (tails ws)). cbn -[IZR Rplus Rmult Rinv Rle INR]. lra.
Qed.
Lemma justify_near l l' : Forall end_fine (l_words l) -> Forall (fun w => size_ok (st_size (wl_state w))) (l_words l) ->
  (1 <= Z.of_nat (tails (l_words l)) <= 10000)%Z -> fin (l_space l) -> Rabs (val (l_space l)) <= 20001 -> justify l = Ok l' ->
  Rabs (line_adv (l_words l') - (line_adv (l_words l) + val (l_space l))) <= INR (tails (l_words l)) / 1000000.
Proof.
  intros EF SF (N1 & N2) FS HS E. destruct (sizes_near _ SF N2) as ((T1 & T2) & T3). set (ws := l_words l) in *. set (sp := l_space l) in *.
  assert (NB : 1 <= INR (tails ws) <= 10000) by (split; [apply (le_INR 1); lia|rewrite INR_IZR_INZ; apply IZR_le; lia]).
  set (N := INR (tails ws)) in *. assert (U := u_val). assert (C := cap25). assert (UP : 0 < u) by apply ulp2_pos.
  assert (U8 : u = / 268435456) by exact U.
  assert (V8 : ulp2 18 = / 34359738368).
  { unfold ulp2. change (18 - 53)%Z with (- (35))%Z. rewrite bpow_opp, <- !(IZR_Zpower radix2) by lia. reflexivity. }
  rewrite V8 in T2. apply abs_out in T2.
  assert (TB : 599 / 100 * N <= val (tail_sizes ws) <= 2401 / 100 * N) by lra.
  unfold justify, pdiv in E. fold ws sp in E.
  destruct (neqb (tail_sizes ws) n0) eqn:Z0.
  { exfalso. destruct (nZ64 pow 0 ltac:(lia)) as (F0 & V0). change (neqb (tail_sizes ws) n0) with (Beqb (tail_sizes ws) (@nZ (Float64 pow) 0)) in Z0.
    apply (eq_val _ _ T1 F0) in Z0. rewrite V0 in Z0. lra. }
  apply bind_ok in E as (ws' & E & E2). apply Ok_inj in E2. subst l'. cbn [l_words].
  set (T := val (tail_sizes ws)) in *. assert (T0 : 0 < T) by lra.
  assert (QB : Rabs (val sp / T) * T <= 20001).
  { unfold Rdiv. rewrite Rabs_mult, Rabs_inv, (Rabs_right T) by lra. rewrite Rmult_assoc, Rinv_l, Rmult_1_r by lra. exact HS. }
  assert (QC : Rabs (val sp / T) <= 3400) by (assert (P := Rabs_pos (val sp / T)); nra).
  destruct (div_near 25 sp (tail_sizes ws) sane25 FS ltac:(fold T; lra) ltac:(fold T; lra)) as (P1 & P2).
  fold T in P2. fold u in P2. change (bdiv sp (tail_sizes ws)) with (ndiv sp (tail_sizes ws)) in *. set (per := ndiv sp (tail_sizes ws)) in *.
  assert (PB : Rabs (val per) <= 3500) by (apply abs_out in P2; apply abs_out in QC; apply abs_in; lra).
  assert (X := extend_all ws per ws' P1 PB EF SF E). fold N in X.
  assert (A1 : Rabs (val per * T - val sp) <= u * (2401 / 100 * N)).
  { replace (val per * T - val sp) with ((val per - val sp / T) * T) by (field; lra). rewrite Rabs_mult, (Rabs_right T) by lra.
    apply Rmult_le_compat; try lra. apply Rabs_pos. }
  assert (A2 : Rabs (val per * exact_sizes ws - val per * T) <= 3500 * (N * / 34359738368)).
  { rewrite <- Rmult_minus_distr_l, Rabs_mult. apply Rmult_le_compat; try apply Rabs_pos; auto. apply abs_in; lra. }
  apply abs_out in A1. apply abs_out in A2. apply abs_out in X. rewrite U8 in *. unfold Rdiv. apply abs_in; lra.
Qed.
(** a line without stretchable spaces, or with no space left, stays as it is *)
Lemma justify_none l l' : tails (l_words l) = 0%nat -> justify l = Ok l' -> l' = l.
Proof.
  intros N E. unfold justify, pdiv, tail_sizes in E. change (fun w : wordlike => match wl_tail w with Some _ => true | None => false end) with has in E.
  unfold tails in N. destruct (filter has (l_words l)); [|discriminate].
  destruct (nZ64 pow 0 ltac:(lia)) as (F0 & V0).
  assert (Z : neqb (nsum (map (fun w : wordlike => st_size (wl_state w)) [])) n0 = true).
  { change (Beqb (@nZ (Float64 pow) 0) (@nZ (Float64 pow) 0) = true). apply (eq_val _ _ F0 F0). reflexivity. }
  rewrite Z in E. apply Ok_inj in E. auto.
Qed.
Lemma extend_none (w : wordlike) (a : @num (Float64 pow)) w' : ntruthy a = false -> wl_extend_tail w a = Ok w' -> w' = w.
Proof.
  intros N. destruct w as [b|w|w c]; cbn [wl_extend_tail].
  - intros E. apply Ok_inj in E. auto.
  - intros E. apply rmap_inv in E as (v & E & ->). f_equal. unfold word_extend_tail in E. rewrite N in E. destruct (w_tail w); apply Ok_inj in E; auto.
  - rewrite N. destruct (wl_tail w); intros E; apply Ok_inj in E; auto.
Qed.
Lemma zero_falsy (x : @num (Float64 pow)) : fin x -> val x = 0 -> ntruthy x = false.
Proof.
  intros F V. destruct (nZ64 pow 0 ltac:(lia)) as (F0 & V0). unfold ntruthy. change (neqb x n0) with (Beqb x (@nZ (Float64 pow) 0)).
  rewrite (proj2 (eq_val x _ F F0)); [reflexivity|]. rewrite V, V0. reflexivity.
Qed.
Lemma RN_0 : Rabs (RN 0) < top /\ RN 0 = 0.
Proof.
  assert (S : sane 25) by apply sane25. assert (C := cap25). split; [apply (RN_small 25 0 S); rewrite Rabs_R0; lra|].
  unfold RN. apply round_0. apply valid_rnd_N.
Qed.
Lemma justify_full l l' : Forall (fun w => size_ok (st_size (wl_state w))) (l_words l) ->
  (Z.of_nat (tails (l_words l)) <= 10000)%Z -> fin (l_space l) -> val (l_space l) = 0 -> justify l = Ok l' -> l_words l' = l_words l.
Proof.
  intros SF N FS HS E. destruct (Nat.eq_dec (tails (l_words l)) 0) as [Z|NZ]; [apply (justify_none l l' Z) in E; subst; reflexivity|].
  destruct (sizes_near _ SF N) as ((T1 & T2) & T3). assert (NB : 1 <= INR (tails (l_words l))) by (apply (le_INR 1); lia).
  assert (V8 : ulp2 18 = / 34359738368).
  { unfold ulp2. change (18 - 53)%Z with (- (35))%Z. rewrite bpow_opp, <- !(IZR_Zpower radix2) by lia. reflexivity. }
  rewrite V8 in T2. apply abs_out in T2.
  unfold justify, pdiv in E. destruct (neqb _ _); [apply Ok_inj in E; subst; reflexivity|].
  apply bind_ok in E as (ws' & E & E2). apply Ok_inj in E2. subst l'. cbn [l_words].
  destruct RN_0 as (R1 & R2). set (T := tail_sizes (l_words l)) in *.
  destruct (div_val (l_space l) T FS ltac:(lra)) as (P1 & P2); [rewrite HS; replace (0 / val T) with 0 by (field; lra); exact R1|].
  rewrite HS in P2. replace (0 / val T) with 0 in P2 by (field; lra). rewrite R2 in P2. change (bdiv (l_space l) T) with (ndiv (l_space l) T) in *. set (per := ndiv (l_space l) T) in *.
  clearbody per. clear -E P1 P2 SF R1 R2. revert ws' E. induction SF as [|w r S0 _ IH]; intros ws' E; cbn [mapM] in E; [apply Ok_inj in E; auto|].
  apply bind_ok in E as (w' & E1 & E). apply bind_ok in E as (r' & E2 & E). apply Ok_inj in E. subst ws'. f_equal; [|apply IH, E2].
  destruct S0 as (S1 & _). eapply extend_none; [|exact E1].
  destruct (mul_val per (st_size (wl_state w)) P1 S1) as (M1 & M2); [rewrite P2, Rmult_0_l; exact R1|].
  apply zero_falsy; [exact M1|]. change (val (bmul per (st_size (wl_state w))) = 0). rewrite M2, P2, Rmult_0_l. exact R2.
Qed.
End Just.
