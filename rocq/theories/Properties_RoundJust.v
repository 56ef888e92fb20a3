(** * C95: justified lines measured in doubles.  The spaces of a justified first-fit line are
    stretched (or shrunk) so that its exact width is the column's, up to a tiny rounding error. *)
From Coq Require Import ZArith QArith Bool Reals Qreals String.
From Flocq Require Import Core IEEE754.BinarySingleNaN.
From Verif Require Import Base Num Float64 FloatProofs NumInstances RoundErr Fonts State TextSpec StateProofs
  Words WordsSpec WordProofs WordOps Parse Firstfit FirstfitProofs LineSpec Common FontsUsed Layout LayoutTotal Builtins BuiltinTables Properties_Words
  Properties_Builtins Properties_Firstfit FloatLines FloatWidths FloatText FloatPara FloatJustify Properties_Float Properties_Round.
From Coq Require Import Lra Lia.
Local Open Scope string_scope. Local Open Scope list_scope.
Open Scope R_scope.
Local Notation real x := (@B2R 53 1024 x).
Local Notation finite x := (@is_finite 53 1024 x = true).
(** ** The specification ([exact_line], [pieces], [metrics_within] and [size_within]: Properties_Round) *)
Section Spec.
Context (pow : b64 -> nat -> b64) {ENV : Env (Float64 pow)}.
#[local] Hint Extern 0 Num => exact (Float64 pow) : typeclass_instances.
(** a space that can be stretched *)
Definition with_space (l : line) : Prop := exists w, In w (l_words l) /\ wl_tail w <> None.
End Spec.
Section Proofs.
Context (pow : b64 -> nat -> b64) {ENV : Env (Float64 pow)}.
#[local] Hint Extern 0 Num => exact (Float64 pow) : typeclass_instances.
Lemma wl_end_in (okf : font -> @num (Float64 pow) -> Prop) w : wl_in okf w -> match wl_end pow w with Some p => st_in okf (snd p) | None => True end.
Proof.
  induction w as [b|w|w IH c]; intros H; cbn [wl_end]; [exact Logic.I| |apply IH, H].
  destruct H as (_ & H). destruct (w_tail w); [exact H|exact Logic.I].
Qed.
Lemma few_tails (l : list wordlike) : (tails pow l <= pieces pow l)%nat.
Proof.
  induction l as [|w r IH]; [auto|]. rewrite tails_cons. change (pieces pow (w :: r)) with ((List.length (wl_boxes w) + 2) + pieces pow r)%nat.
  destruct (has pow w); lia.
Qed.
Lemma some_tail l : with_space pow l -> (1 <= tails pow (l_words l))%nat.
Proof.
  intros (w & I & T). unfold tails. assert (X : In w (filter (has pow) (l_words l))).
  { apply filter_In. split; [exact I|]. unfold has. destruct (wl_tail w); [reflexivity|congruence]. }
  destruct (filter _ _); [destruct X|cbn; lia].
Qed.
Lemma no_tails l : ~ with_space pow l -> tails pow (l_words l) = 0%nat.
Proof.
  intros H. unfold tails. destruct (filter (has pow) (l_words l)) as [|w r] eqn:E; [reflexivity|]. exfalso. apply H. exists w.
  assert (X : In w (filter (has pow) (l_words l))) by (rewrite E; left; reflexivity). apply filter_In in X as (X1 & X2). split; [exact X1|].
  unfold has in X2. destruct (wl_tail w); [discriminate|discriminate X2].
Qed.
Lemma last_space q ls : steps q ls None -> forall p : @num (Float64 pow) * line, List.last (map Some ls) None = Some p -> l_space (snd p) = n0.
Proof.
  intros ST. remember None as z eqn:Z. induction ST as [q|ws w q l r z T ST IH]; intros p L; [discriminate|]. subst z.
  destruct r as [|p1 r].
  - cbn in L. injection L as <-. cbn [snd]. inversion ST; subst. unfold take_line in T.
    destruct (fit_words ws w []) as [[c sp] stop]. destruct stop as [[w0 r0]|]; [|injection T as <-; reflexivity].
    apply bind_ok in T as ([la da] & _ & T). destruct la as [la|]; [injection T as T1 _; discriminate|].
    destruct (rev c); [|destruct (ntruthy _); injection T as T1 _; discriminate].
    destruct (wl_minimal da) as [x [y|]]; [injection T as T1 _; discriminate|]. destruct r0; [injection T as <-; reflexivity|injection T as T1 _; discriminate].
  - apply IH; [reflexivity|]. exact L.
Qed.
Lemma steps_frags q ls z : steps q ls z -> Forall (fun p : num * line => (frags_of pow (l_words (snd p)) <= frags_of pow (opt_list q))%nat) ls.
Proof.
  induction 1 as [q|ws w q l r z T ST IH]; [constructor|]. destruct (take_line_frags pow 0 (fun _ => 0) (fun _ => 0) (fun _ => False) (fun _ H => match H with end) (fun _ H => match H with end) (fun _ H => match H with end) _ _ _ _ T) as (F1 & F2). constructor; [exact F1|].
  eapply Forall_impl; [|exact IH]. cbn beta. intros x X. cbn [opt_list] in *. lia.
Qed.
End Proofs.

Theorem C95_justified_fills : forall pow (ENV : Env (Float64 pow))
    fuel ps st cmd ws ex (indent : @num (Float64 pow)) ws' (cols : nat -> @num (Float64 pow) * @num (Float64 pow)) ae lead av cs cs',
  metrics_within pow 8000 -> psg_in (size_within pow 6 24) ps -> st_in (size_within pow 6 24) st ->
  finite indent -> Rabs (real indent) <= 24 ->
  into_words ps st = Ok (cmd, ws, ex) -> ws <> [] -> indent_first ws indent = Ok ws' ->
  Forall (fun w => Forall (fun b => (fragment_length pow b <= 32)%nat) (wl_boxes w)) ws ->
  (Z.of_nat (pieces pow ws) <= 10000)%Z -> (forall i, finite (fst (cols i)) /\ Rabs (real (fst (cols i))) <= 10000) ->
  ff_shape fuel ws' cols ae lead av false = Ok cs ->
  ff_shape fuel ws' cols ae lead av true = Ok cs' ->
  Forall2 (fun p p' : @num (Float64 pow) * line => fst p' = fst p
      /\ (with_space pow (snd p) -> Rabs (exact_line pow (l_words (snd p))) <= 10000 ->
          Rabs (exact_line pow (l_words (snd p')) - real (fst p)) <= INR (pieces pow (l_words (snd p)) + 1) / 100000)
      /\ (~ with_space pow (snd p) -> snd p' = snd p))
    (removelast (placed cols cs)) (removelast (placed cols cs'))
  /\ (forall p p', List.last (map Some (placed cols cs)) None = Some p ->
        List.last (map Some (placed cols cs')) None = Some p' ->
        fst p' = fst p /\ l_words (snd p') = l_words (snd p)).
Proof.
  intros pow ENV fuel ps st cmd ws ex x ws' cols ae lead av cs cs' MW P S FX HX E NE I L N C SH SH'.
  apply ff_justified in SH' as (cs0 & SH0 & JU). rewrite SH in SH0. apply Ok_inj in SH0. subst cs0.
  assert (PE : point_error 24 20 27 32 <= 8 / 1000000 - / 1000000).
  { unfold point_error. change (20 - 53)%Z with (- (33))%Z. change (27 - 53)%Z with (- (26))%Z. rewrite !pow2n by lia.
    replace (INR (11 * 32 + 30)) with 382 by (rewrite INR_IZR_INZ; reflexivity). cbn [Z.pow Z.pow_pos Pos.iter]. cbn -[IZR Rplus Rmult Rinv Rle]. lra. }
  assert (NR : INR (pieces pow ws) <= 10000) by (rewrite INR_IZR_INZ; apply IZR_le, N).
  assert (AM : ample 8000 24 20 27 32).
  { unfold ample. change (20 - 53)%Z with (- (33))%Z. change (27 - 53)%Z with (- (26))%Z. rewrite !pow2n, !pow2 by lia.
    replace (INR (2 * 32 + 8)) with 72 by (rewrite INR_IZR_INZ; reflexivity). replace (INR (12 * 32 + 60)) with 444 by (rewrite INR_IZR_INZ; reflexivity).
    cbn -[IZR Rplus Rmult Rinv Rle Z.le]. repeat split; try lia; lra. }
  destruct AM as (A1 & A2 & A3 & A4 & A5 & A6 & A7). destruct MW as (W & K).
  assert (CC : forall i, fin (fst (cols i)) /\ Rabs (val (fst (cols i))) + INR (frags pow ws) * (B_box 8000 24 32 + d 27 (e_box 24 20 27 32)) <= cap 27).
  { intros i. destruct (C i) as (C1 & C2). split; [exact C1|].
    assert (X : INR (pieces pow ws) * (fragment_most 8000 24 32 + point_error 24 20 27 32) <= 10000 * (13056 + 1)).
    { assert (Y : fragment_most 8000 24 32 + point_error 24 20 27 32 <= 13056 + 1).
      { unfold fragment_most. replace (INR (2 * 32 + 4)) with 68 by (rewrite INR_IZR_INZ; reflexivity). lra. }
      assert (Y0 : 0 <= fragment_most 8000 24 32 + point_error 24 20 27 32).
      { unfold fragment_most, point_error. assert (Z1 := bpow_gt_0 radix2 (20 - 53)). assert (Z2 := bpow_gt_0 radix2 (27 - 53)).
        assert (Z3 := pos_INR (11 * 32 + 30)). assert (Z4 := pos_INR (2 * 32 + 4)).
        assert (0 <= INR (2 * 32 + 4) * (8000 * 24 / 1000)) by (apply Rmult_le_pos; lra).
        assert (0 <= INR (11 * 32 + 30) * (bpow radix2 (20 - 53) * 24 + bpow radix2 (27 - 53))) by (apply Rmult_le_pos; lra). lra. }
      apply Rmult_le_compat; [apply pos_INR|exact Y0|exact NR|exact Y]. }
    change (cap 27) with (bpow radix2 27). rewrite pow2 by lia. change (2 ^ 27)%Z with 134217728%Z.
    change (INR (frags pow ws) * (B_box 8000 24 32 + d 27 (e_box 24 20 27 32))) with (INR (pieces pow ws) * (fragment_most 8000 24 32 + point_error 24 20 27 32)).
    change (val (fst (cols i))) with (real (fst (cols i))). lra. }
  assert (HX2 : 2000 * Rabs (val x) <= 8000 * 6) by (change (val x) with (real x); lra).
  assert (P6 : 0 < 6) by lra.
  assert (SPC := para_space pow 8000 6 24 20 27 32 A1 A2 W K A4 A3 A5 A6 A7 P6 x FX HX2 fuel ps st cmd ws ex ws' cols ae lead av cs P S E I L NE CC SH).
  assert (WIN : Forall (fun p : @num (Float64 pow) * line => FontsUsed.wls_in (size_within pow 6 24) (l_words (snd p))) (placed cols cs)).
  { destruct (into_words_in (size_within pow 6 24) _ _ _ P S E) as (_ & A). apply (indent_first_in _ _ _ _ A) in I.
    apply (ff_shape_in (size_within pow 6 24) _ _ _ _ _ _ _ _ I) in SH. clear -SH. revert cols. induction SH as [|ls r H _ IH]; intros cols; cbn [placed]; [constructor|].
    apply Forall_app. split; [|apply IH]. apply Forall_forall. intros p IP. apply in_map_iff in IP as (l & <- & IL). cbn [snd]. unfold lines_in in H. rewrite Forall_forall in H. apply H, IL. }
  destruct (ff_plain _ _ _ _ _ _ _ SH) as (ST & _). assert (LS := last_space pow _ _ ST).
  assert (FR : Forall (fun p : @num (Float64 pow) * line => (pieces pow (l_words (snd p)) <= pieces pow ws)%nat) (placed cols cs)).
  { assert (X := steps_frags pow _ _ _ ST). cbn [opt_list] in X.
    assert (G : frags pow ws' = frags pow ws).
    { assert (Y : Forall (FloatPara.pgood pow 8000 24 20 27 32) ws' /\ frags pow ws' = frags pow ws /\ (ws <> [] -> ws' <> [])); [|apply Y].
      eapply para_good with (x := x) (ws := ws) (ps := ps) (Smin := 6); try exact E; try exact I; try exact L; try exact A3; try exact A4; try assumption. }
    eapply Forall_impl; [|exact X]. cbn beta. intros q Q. change (frags_of pow ws') with (frags pow ws') in Q. rewrite G in Q. exact Q. }
  clear ST.
  assert (PL : Forall2 (fun p p' : @num (Float64 pow) * line => fst p' = fst p /\ justify (snd p) = Ok (snd p')) (placed cols cs) (placed cols cs')).
  { clear -JU. revert cols. induction JU as [|a b cs cs' H _ IH]; intros cols; cbn; [constructor|].
    apply Forall2_app; auto. induction H; cbn; constructor; auto. }
  assert (CL : Forall (fun p : @num (Float64 pow) * line => Rabs (real (fst p)) <= 10000) (placed cols cs)).
  { clear -C. revert cols C. induction cs as [|ls r IH]; intros cols C; cbn [placed]; [constructor|]. apply Forall_app. split; [|apply IH; intros i; apply (C (Datatypes.S i))].
    apply Forall_forall. intros p IP. apply in_map_iff in IP as (l & <- & _). apply C. }
  clear JU SH E I CC. revert SPC WIN PL LS CL FR. generalize (placed cols cs) (placed cols cs'). intros l l' SPC WIN PL. revert SPC WIN.
  assert (SZ : forall ws : list wordlike, FontsUsed.wls_in (size_within pow 6 24) ws -> Forall (fun w => size_ok pow (st_size (wl_state w))) ws).
  { intros v H. eapply Forall_impl; [|exact H]. intros w WI. apply wl_state_in in WI. exact WI. }
  induction PL as [|p p' l l' (P1 & P2) PL IH]; intros SPC WIN LS CL FR.
  - split; [constructor|discriminate].
  - inversion WIN as [|? ? W1 W2]; subst. inversion CL as [|? ? C1 C2]; subst. destruct l as [|p1 l].
    + inversion PL; subst. split; [constructor|]. intros q q' Q1 Q2. cbn in Q1, Q2. injection Q1 as <-. injection Q2 as <-. split; [exact P1|]. assert (NP := Forall_inv FR). cbn beta in NP.
      specialize (LS p eq_refl). destruct (zero_small pow) as (Z1 & Z2). eapply (justify_full pow); [apply SZ, W1| | | |exact P2].
      * assert (X := few_tails pow (l_words (snd p))). lia.
      * rewrite LS. exact Z1.
      * rewrite LS. apply abs_out in Z2. lra.
    + inversion PL as [|? p1' ? l1' Q1 Q2]; subst.
      change (removelast (p :: p1 :: l)) with (p :: removelast (p1 :: l)) in *.
      change (removelast (p' :: p1' :: l1')) with (p' :: removelast (p1' :: l1')).
      inversion SPC as [|? ? S1 S2]; subst. destruct (IH S2 W2) as (I1 & I2).
      { intros q Q. apply LS. exact Q. }
      { exact C2. }
      { exact (Forall_inv_tail FR). }
      split; [|intros q q' X1 X2; apply I2; [exact X1|exact X2]]. constructor; [|exact I1]. clear IH I1 I2 S2 Q1 Q2 PL SPC WIN LS C2 W2.
      split; [exact P1|]. split; [|intros NS; apply (justify_none pow); [apply no_tails, NS|exact P2]].
      intros HS HB. destruct S1 as [S1|(S1 & _ & S2 & S3)].
      { exfalso. destruct HS as (w & J1 & J2). rewrite Forall_forall in S1. specialize (S1 w J1). assert (X := end_tail pow w). rewrite S1 in X. auto. }
      assert (FT := few_tails pow (l_words (snd p))). assert (ST := some_tail pow _ HS). set (wo := l_words (snd p)) in *.
      change (frags pow wo) with (pieces pow wo) in *. change (frags pow ws) with (pieces pow ws) in S2.
      change (d 27 (e_box 24 20 27 32)) with (point_error 24 20 27 32) in S1. rewrite <- exact_line_true in S1. destruct S1 as (F1 & S1). change (val (fst p)) with (real (fst p)) in S1.
      assert (PN : INR (pieces pow wo) <= 10000) by (eapply Rle_trans; [apply le_INR, S2|exact NR]). assert (PP := pos_INR (pieces pow wo)).
      assert (NT : INR (tails pow wo) <= INR (pieces pow wo)) by (apply le_INR, FT).
      rewrite plus_INR in *. change (INR 1) with 1 in *. set (n := INR (pieces pow wo)) in *.
      assert (ER : (n + 1) * point_error 24 20 27 32 <= (n + 1) * (7 / 1000000)) by (apply Rmult_le_compat_l; lra).
      assert (JN : Rabs (exact_line pow (l_words (snd p')) - (exact_line pow wo + val (l_space (snd p)))) <= INR (tails pow wo) / 1000000).
      { assert (TZ : (1 <= Z.of_nat (tails pow (l_words (snd p))) <= 10000)%Z) by (fold wo; lia).
        rewrite !exact_line_true. apply (justify_near pow); [| |exact TZ|exact F1| |exact P2].
        - apply Forall_forall. intros w IW. rewrite Forall_forall in S3. specialize (S3 w IW). unfold FontsUsed.wls_in in W1. rewrite Forall_forall in W1. specialize (W1 w IW).
          apply wl_end_in in W1. unfold end_fine. destruct (wl_end pow w) as [[t s]|]; [|exact Logic.I]. destruct S3 as (_ & _ & _ & G4 & G5). cbn [fst snd] in *.
          split; [exact G4|]. split; [eapply Rle_trans; [exact G5|lra]|exact W1].
        - apply SZ, W1.
        - change (l_words (snd p)) with wo. apply abs_out in S1. apply abs_out in HB. apply abs_out in C1. apply abs_in; lra. }
      apply abs_out in S1. apply abs_out in JN. apply abs_in; lra.
Qed.
Print Assumptions C95_justified_fills.
(** ** The hypotheses are met: "i is in it" in a column of 20.1 points.  "i is" is 14.664
    points wide and is stretched; the width it then has is not exactly the double 20.1. *)
#[local] Existing Instance ex_num.
#[local] Existing Instance dbl_std.
Definition ju_ws : list wordlike := match into_words [(NoOp, str_of "i is in it")] dbl_state with Ok (_, ws, _) => ws | Err _ => [] end.
Definition ju_W : @num ex_num := nQ (201 # 10)%Q.
Definition ju_shape (j : bool) : res (list (list line)) := ff_shape 10 ju_ws (fun _ => (ju_W, nZ 100)) false (nZ 15) false j.
Definition ju_line (j : bool) : @line ex_num := match ju_shape j with Ok [[l; _]] => l | _ => @mkLine ex_num [] n0 n0 end.
Definition ju_last (j : bool) : @line ex_num := match ju_shape j with Ok [[_; l]] => l | _ => @mkLine ex_num [] n0 n0 end.
Lemma two_lines (r : res (list (list (@line ex_num)))) d : match r with Ok [[_; _]] => true | _ => false end = true ->
  r = Ok [[match r with Ok [[l; _]] => l | _ => d end; match r with Ok [[_; l]] => l | _ => d end]].
Proof. destruct r as [[|[|l [|l2 [|]]] [|]]|]; try discriminate. reflexivity. Qed.
Definition spaced (l : @line ex_num) : bool := existsb (fun w => match wl_tail w with Some _ => true | None => false end) (l_words l).
Lemma spaced_ok l : spaced l = true -> with_space ex_pow l.
Proof. intros H. apply existsb_exists in H as (w & I & T). exists w. split; [exact I|]. intros X. assert (X' : @wl_tail ex_num w = None) by exact X. rewrite X' in T. discriminate. Qed.
Example C95_example :
  ju_shape false = Ok [[ju_line false; ju_last false]] /\ ju_shape true = Ok [[ju_line true; ju_last true]]
  /\ rmap (map (map (fun l => map fst (measured_all (l_words l))))) (ju_shape false) = Ok [[str_of "i is"; str_of "in it"]]
  /\ pieces ex_pow ju_ws = 12%nat /\ with_space ex_pow (ju_line false)
  /\ 0 <= exact_line ex_pow (l_words (ju_line false)) <= 15
  /\ 20 < exact_line ex_pow (l_words (ju_line true)) /\ exact_line ex_pow (l_words (ju_line true)) <> real ju_W.
Proof.
  split; [apply two_lines; vm_compute; reflexivity|]. split; [apply two_lines; vm_compute; reflexivity|].
  split; [vm_compute; reflexivity|]. split; [vm_compute; reflexivity|]. split; [apply spaced_ok; vm_compute; reflexivity|].
  rewrite !q_line_ok, frac_real. split; [split|split].
  - replace 0 with (Q2R 0) by (unfold Q2R; cbn; lra). apply Qreals.Qle_Rle. vm_compute. discriminate.
  - replace 15 with (Q2R 15) by (unfold Q2R; cbn; lra). apply Qreals.Qle_Rle. vm_compute. discriminate.
  - replace 20 with (Q2R 20) by (unfold Q2R; cbn; lra). apply Qreals.Qlt_Rlt. vm_compute. reflexivity.
  - intros X. apply Qreals.eqR_Qeq in X. revert X. vm_compute. discriminate.
Qed.
