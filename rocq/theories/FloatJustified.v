(** * FloatJustified: justifying lines, in doubles, makes no number that is not finite. *)
From Coq Require Import ZArith Bool Reals.
From Flocq Require Import Core IEEE754.BinarySingleNaN.
From Verif Require Import Base Num Float64 FloatProofs NumInstances RoundErr Fonts State TextSpec StateProofs
  Words WordsSpec WordProofs WordOps LineSpec Firstfit FirstfitProofs FirstfitWidth FloatLines FloatWidths FloatJustify Style Parse Render Draw NumbersUsed WritesTotal FloatWrites
  Common Layout LayoutSpec LayoutLaws LawTotal Properties_Firstfit FloatText FloatPara FloatTotal FontsUsed Properties_Float Properties_Round Properties_RoundOk Properties_RoundJust TextBlock Firstfit LineSpec.
From Coq Require Import Lra Lia.
Open Scope R_scope.
Section Fin.
Context (pow : b64 -> nat -> b64) {ENV : Env (Float64 pow)}.
#[local] Hint Extern 0 Num => exact (Float64 pow) : typeclass_instances.
Notation any := (fun _ : @num (Float64 pow) => True).
Notation anyc := (fun _ : char => True).
Notation adj := (@adj (Float64 pow)).
Notation wl_in := (NumbersUsed.wl_in adj any anyc).
Lemma cap_is k z : (0 <= k)%Z -> (2 ^ k = z)%Z -> cap k = IZR z.
Proof. intros K <-. unfold cap. rewrite <- (IZR_Zpower radix2) by lia. reflexivity. Qed.
Lemma small_ulp : 0 < ulp2 60 <= 1 / 10 * 10 * 128.
Proof. unfold ulp2. split; [apply bpow_gt_0|]. change (60 - 53)%Z with 7%Z. rewrite <- (IZR_Zpower radix2) by lia. cbn -[Rle IZR Rmult Rdiv]. lra. Qed.
Lemma sane60 : sane 60. Proof. unfold sane. lia. Qed.
Lemma stretch_fin t (a : @num (Float64 pow)) st t' : fin (ts_kern t) -> Rabs (val (ts_kern t)) <= 16000 -> size_ok pow (st_size st) ->
  fin a -> Rabs (val a) <= 2147483648 -> tspace_stretch t a st = Ok t' -> fin (ts_kern t').
Proof.
  intros K1 K2 (S1 & S2 & S3) FA HA E. unfold tspace_stretch, pdiv in E. destruct (neqb _ _); [discriminate|]. cbn [bind] in E. apply Ok_inj in E. subst t'.
  set (sz := st_size st) in *. destruct (n1000_val pow) as (F1 & V1). assert (U := small_ulp). assert (C := cap_is 60 1152921504606846976 ltac:(lia) eq_refl).
  assert (QA : Rabs (val a / val sz) <= 2147483648).
  { unfold Rdiv. rewrite Rabs_mult, Rabs_inv, (Rabs_right (val sz)) by lra. apply (Rmult_le_reg_r (val sz)); [lra|].
    rewrite Rmult_assoc, Rinv_l, Rmult_1_r by lra. nra. }
  assert (Q1 : close (bdiv a sz) (val a / val sz) (ulp2 60)) by (apply (div_near 60); auto; [apply sane60|lra|lra]).
  assert (Q2 : close (bmul (bdiv a sz) (@n1000 (Float64 pow))) (val a / val sz * 1000) (1001 * ulp2 60)).
  { rewrite <- V1. eapply close_weak; [|apply (close_mul 60 _ _ _ _ sane60 Q1 F1)]; rewrite V1, (Rabs_right 1000) by lra; lra. }
  assert (Z : Rabs (val a / val sz * 1000) <= 2147483648 * 1000) by (rewrite Rabs_mult, (Rabs_right 1000) by lra; lra).
  assert (T := Rabs_triang (val (ts_kern t)) (val a / val sz * 1000)).
  assert (Q3 : close (badd (ts_kern t) (bmul (bdiv a sz) (@n1000 (Float64 pow)))) (val (ts_kern t) + val a / val sz * 1000) (0 + 1001 * ulp2 60 + ulp2 60)).
  { apply (close_add 60 _ _ _ _ _ _ sane60 (exact_close _ K1) Q2). lra. }
  apply Q3.
Qed.
Lemma extend_fin w : forall (a : @num (Float64 pow)) w', end_fine pow w -> fin a -> Rabs (val a) <= 2147483648 -> wl_in w ->
  wl_extend_tail w a = Ok w' -> wl_in w'.
Proof.
  induction w as [b|w|w IH c]; intros a w' TF FA HA I E; cbn [wl_extend_tail] in E.
  - apply Ok_inj in E. subst w'. exact I.
  - apply rmap_inv in E as (v & E & ->). unfold word_extend_tail in E.
    destruct (w_tail w) as [t|] eqn:T; [|apply Ok_inj in E; subst v; exact I].
    destruct (ntruthy a); [|apply Ok_inj in E; subst v; exact I].
    apply rmap_inv in E as (t' & E & ->). unfold end_fine in TF. cbn [FloatLines.wl_end] in TF. rewrite T in TF. cbn [option_map] in TF.
    destruct TF as (K1 & K2 & K3). cbn [fst snd] in K1, K2, K3. apply (stretch_fin _ _ _ _ K1 K2 K3 FA HA) in E.
    destruct I as (I1 & I2 & _). split; [exact I1|]. split; [exact I2|]. cbn [w_tail NumbersUsed.tail_in]. apply (fin_neg_adj pow), E.
  - destruct I as (I1 & I2). destruct (wl_tail w) as [t|]; [|apply Ok_inj in E; subst w'; split; assumption].
    destruct (ntruthy a); [|apply Ok_inj in E; subst w'; split; assumption].
    apply rmap_inv in E as (v & E & ->). split; [exact (IH a v TF FA HA I1 E)|exact I2].
Qed.
Lemma justify_fin l l' : Forall (end_fine pow) (l_words l) -> Forall (fun w => size_ok pow (st_size (wl_state w))) (l_words l) ->
  (Z.of_nat (tails pow (l_words l)) <= 10000)%Z -> fin (l_space l) -> Rabs (val (l_space l)) <= 268435456 ->
  Forall wl_in (l_words l) -> justify l = Ok l' -> Forall wl_in (l_words l').
Proof.
  intros EF SF N2 FS HS I E. destruct (Nat.eq_dec (tails pow (l_words l)) 0) as [N0|N1].
  { apply (justify_none pow l l' N0) in E. subst l'. exact I. }
  destruct (sizes_near pow _ SF N2) as ((T1 & T2) & T3). set (ws := l_words l) in *. set (sp := l_space l) in *.
  assert (NB : 1 <= INR (tails pow ws) <= 10000) by (split; [apply (le_INR 1); lia|rewrite INR_IZR_INZ; apply IZR_le; lia]).
  set (N := INR (tails pow ws)) in *. assert (U := small_ulp). assert (C := cap_is 60 1152921504606846976 ltac:(lia) eq_refl).
  assert (V8 : ulp2 18 = / 34359738368).
  { unfold ulp2. change (18 - 53)%Z with (- (35))%Z. rewrite bpow_opp, <- !(IZR_Zpower radix2) by lia. reflexivity. }
  rewrite V8 in T2. apply abs_out in T2.
  assert (TB : 599 / 100 <= val (tail_sizes ws)) by lra.
  unfold justify, pdiv in E. fold ws sp in E.
  destruct (neqb (tail_sizes ws) n0); [apply Ok_inj in E; subst l'; exact I|].
  apply bind_ok in E as (ws' & E & E2). apply Ok_inj in E2. subst l'. cbn [l_words].
  set (T := val (tail_sizes ws)) in *. assert (T0 : 0 < T) by lra.
  assert (QB : Rabs (val sp / T) * T <= 268435456).
  { unfold Rdiv. rewrite Rabs_mult, Rabs_inv, (Rabs_right T) by lra. rewrite Rmult_assoc, Rinv_l, Rmult_1_r by lra. exact HS. }
  assert (QC : Rabs (val sp / T) <= 50000000) by (assert (P := Rabs_pos (val sp / T)); nra).
  destruct (div_near 60 sp (tail_sizes ws) sane60 FS ltac:(fold T; lra) ltac:(fold T; lra)) as (P1 & P2).
  fold T in P2. change (bdiv sp (tail_sizes ws)) with (ndiv sp (tail_sizes ws)) in *. set (per := ndiv sp (tail_sizes ws)) in *.
  assert (PB : Rabs (val per) <= 60000000) by (apply abs_out in P2; apply abs_out in QC; apply abs_in; lra).
  clearbody per ws. clear -EF SF I E P1 PB U C. revert ws' E. induction ws as [|w r IH]; intros ws' E; cbn [mapM] in E.
  - apply Ok_inj in E. subst ws'. constructor.
  - apply bind_ok in E as (w' & E1 & E). apply bind_ok in E as (r' & E2 & E). apply Ok_inj in E. subst ws'.
    assert (S0 := Forall_inv SF). cbn beta in S0. destruct S0 as (S1 & S2 & S3). set (s := st_size (wl_state w)) in *.
    assert (B : Rabs (val per * val s) <= 1440000000).
    { rewrite Rabs_mult, (Rabs_right (val s)) by lra. apply Rle_trans with (60000000 * 24); [apply Rmult_le_compat; try lra; apply Rabs_pos|lra]. }
    destruct (mul_near 60 per s sane60 P1 S1 ltac:(lra)) as (M1 & M2). change (bmul per s) with (nmul per s) in *.
    assert (MB : Rabs (val (nmul per s)) <= 2147483648) by (apply abs_out in M2; apply abs_out in B; apply abs_in; lra).
    constructor; [exact (extend_fin w _ w' (Forall_inv EF) M1 MB (Forall_inv I) E1)|].
    apply IH; [exact (Forall_inv_tail EF)|exact (Forall_inv_tail SF)|exact (Forall_inv_tail I)|exact E2].
Qed.
End Fin.
(** ** the lines of a justified paragraph *)
Section Para.
Context (pow : b64 -> nat -> b64) {ENV : Env (Float64 pow)}.
#[local] Hint Extern 0 Num => exact (Float64 pow) : typeclass_instances.
Notation any := (fun _ : @num (Float64 pow) => True).
Notation anyc := (fun _ : char => True).
Notation adj := (@adj (Float64 pow)).
Hypothesis MW : metrics_within pow 8000.
Context (p : @para (Float64 pow)).
Hypothesis FF : p_optimal p = None.
Hypothesis FX : fin (p_indent p).
Hypothesis HX : Rabs (val (p_indent p)) <= 24.
Lemma in_last {A} (l : list A) x : In x l -> In x (removelast l) \/ List.last (map Some l) None = Some x.
Proof.
  induction l as [|a l IH]; [intros []|]. intros I. destruct l as [|b l].
  - destruct I as [<-|[]]. right. reflexivity.
  - change (removelast (a :: b :: l)) with (a :: removelast (b :: l)). destruct I as [<-|I]; [left; left; reflexivity|].
    destruct (IH I) as [X|X]; [left; right; exact X|right; exact X].
Qed.
Lemma in_removelast {A} (l : list A) x : In x (removelast l) -> In x l.
Proof.
  induction l as [|a l IH]; [auto|]. destruct l as [|b l]; [intros []|]. change (removelast (a :: b :: l)) with (a :: removelast (b :: l)).
  intros [<-|I]; [left; reflexivity|right; apply IH, I].
Qed.
Lemma justified_writes lead : is_justify (p_align p) = true ->
  @lays (Float64 pow) ENV (fun _ l => words_finite (tl_words l)) (FloatPara.sized pow 6 24) (FloatTotal.modest pow 32 (Z.to_nat 202) (Z.to_nat 10000))
    (suitable pow 8000 24 20 27 32 (Z.to_nat 10000)) p lead.
Proof.
  intros JJ gr st cmd ws ex ws' cs ae fuel chunks A P S E I DC SH i ls NT. destruct (A st cmd ws ex E) as (A1 & A2 & A3).
  destruct numbers as (PE & (N1 & N2 & N3 & N4 & N5 & N6 & N7) & NC & NH). destruct MW as (MW1 & MW2).
  assert (HX2 : 2000 * Rabs (val (p_indent p)) <= 8000 * 6) by lra. assert (P6 : 0 < 6) by lra.
  assert (G : Forall (FloatPara.pgood pow 8000 24 20 27 32) ws' /\ frags pow ws' = frags pow ws /\ (ws <> [] -> ws' <> [])).
  { eapply para_good with (x := p_indent p) (ws := ws) (ps := gr) (Smin := 6); try exact E; try exact I; try exact A1; try exact N4; try exact N3; try assumption. }
  destruct G as (G1 & G2 & G3).
  assert (W : NumbersUsed.wls_in adj any anyc ws').
  { eapply Forall_impl; [|exact G1]. apply (good_adj pow 8000 24 20 27 32). }
  unfold shape in SH. rewrite FF, JJ in SH. apply rmap_inv in SH as (out & SH & ->).
  apply ff_justified in SH as (out0 & SH & JU).
  set (cols := fun i : nat => (c_width (cf_box (cs i)), cf_free (cs i))) in *.
  rewrite nth_error_map in NT. destruct (nth_error out i) as [l1|] eqn:NE; [|discriminate]. injection NT as <-. apply Forall_map. cbn [ff_tline tl_words].
  assert (J0 : exists l0, nth_error out0 i = Some l0 /\ Forall2 (fun l l' => justify l = Ok l') l0 l1).
  { clear -JU NE. revert i NE. induction JU as [|a b r r' H _ IH]; intros [|i] NE; try discriminate; [injection NE as <-; exists a; auto|apply IH; exact NE]. }
  destruct J0 as (l0 & NE0 & J0). clear JU NE.
  assert (SFA := SH). apply (NumbersUsed.ff_shape_in adj any (zero_adj pow) (FloatWrites.kern_adj pow 8000 MW2) anyc Logic.I) in SFA; [|exact W].
  assert (WIN : Forall (fun p : @num (Float64 pow) * line => FontsUsed.wls_in (size_within pow 6 24) (l_words (snd p))) (placed cols out0)).
  { destruct (FontsUsed.into_words_in (size_within pow 6 24) _ _ _ P S E) as (_ & B). apply (FontsUsed.indent_first_in _ _ _ _ B) in I.
    assert (X := SH). apply (FontsUsed.ff_shape_in (size_within pow 6 24) _ _ _ _ _ _ _ _ I) in X. clear -X. revert X. generalize cols. clear cols.
    intros cols X. revert cols. induction X as [|ls r H _ IH]; intros cols; cbn [placed]; [constructor|].
    apply Forall_app. split; [|apply IH]. apply Forall_forall. intros q IP. apply in_map_iff in IP as (l & <- & IL). cbn [snd]. unfold FontsUsed.lines_in in H. rewrite Forall_forall in H. apply H, IL. }
  destruct (ff_plain _ _ _ _ _ _ _ SH) as (ST & _). assert (LS := last_space pow _ _ ST). assert (FR := steps_frags pow _ _ _ ST). clear ST.
  assert (PL : forall l, In l l0 -> In (fst (cols i), l) (placed cols out0)).
  { assert (Y : forall (cols : nat -> @num (Float64 pow) * @num (Float64 pow)) (out : list (list (@line (Float64 pow)))) i l0, nth_error out i = Some l0 ->
     forall l, In l l0 -> In (fst (cols i), l) (placed cols out)); [|intros l IL; exact (Y cols out0 i l0 NE0 l IL)].
    clear. intros cols out. revert cols. induction out as [|c r IH]; intros cols [|i] l0 NE0 l IL; try discriminate; cbn [placed]; apply in_or_app.
    - injection NE0 as ->. left. apply in_map. exact IL.
    - right. exact (IH (fun j => cols (Datatypes.S j)) i l0 NE0 l IL). }
  assert (SPC : ws <> [] -> Forall (fun p : @num (Float64 pow) * line =>
      Forall (fun w => wl_end pow w = None) (l_words (snd p))
      \/ (fin (l_space (snd p)) /\ Rabs (val (l_space (snd p))) <= 268435456
          /\ Forall (end_fine pow) (l_words (snd p)))) (removelast (placed cols out0))).
  { intros NEW.
    assert (CC : forall i, fin (fst (cols i)) /\ Rabs (val (fst (cols i))) + INR (frags pow ws) * (B_box 8000 24 32 + d 27 (e_box 24 20 27 32)) <= cap 27).
    { intros j. eapply (suitable_width pow 8000 24 20 27 32) with (c := cf_box (cs j)); try exact A3; try exact (DC j); try assumption; try exact N4; lra. }
    assert (R := para_space pow 8000 6 24 20 27 32 N1 N2 MW1 MW2 N4 N3 N5 N6 N7 P6 (p_indent p) FX HX2 fuel gr st cmd ws ex ws' cols ae lead _ out0
      P S E I A1 NEW CC SH).
    assert (SZP : Forall (fun p : @num (Float64 pow) * line => Forall (fun w => match wl_end pow w with Some t => size_ok pow (st_size (snd t)) | None => True end) (l_words (snd p))) (removelast (placed cols out0))).
    { rewrite Forall_forall in WIN. apply Forall_forall. intros q IQ. specialize (WIN q (in_removelast _ _ IQ)). eapply Forall_impl; [|exact WIN].
      intros w WI. apply (wl_end_in pow (size_within pow 6 24)) in WI. destruct (wl_end pow w) as [t|]; [exact WI|exact Logic.I]. }
    rewrite Forall_forall in R, SZP. apply Forall_forall. intros q IQ. specialize (SZP q IQ). destruct (R q IQ) as [X|(X1 & X2 & X3 & X4)]; [left; exact X|right].
    destruct X1 as (F & X1). split; [exact F|]. split.
    - change (d 27 (e_box 24 20 27 32)) with (point_error 24 20 27 32) in X1.
      assert (FB : INR (frags pow (l_words (snd q)) + 1) <= 10001).
      { rewrite INR_IZR_INZ. apply IZR_le. lia. }
      assert (C27 := cap_is 27 134217728 ltac:(lia) eq_refl). rewrite C27 in X2.
      assert (Y : INR (frags pow (l_words (snd q)) + 1) * point_error 24 20 27 32 <= 10001 * / 100000) by (apply Rmult_le_compat; try lra; apply pos_INR).
      apply abs_out in X1. apply abs_out in X2. apply abs_in; lra.
    - rewrite Forall_forall in SZP, X4. apply Forall_forall. intros w IW. specialize (SZP w IW). specialize (X4 w IW). cbn beta in *. unfold end_fine. destruct (wl_end pow w) as [t|]; [|exact Logic.I].
      destruct X4 as (_ & _ & _ & K1 & K2). split; [exact K1|]. split; [lra|exact SZP]. }
  assert (IN0 := nth_error_In _ _ NE0). rewrite Forall_forall in SFA. specialize (SFA _ IN0). unfold NumbersUsed.lines_in in SFA.
  apply Forall_forall. intros l' IL'.
  assert (X : exists l, In l l0 /\ justify l = Ok l').
  { clear -J0 IL'. induction J0 as [|a b r r' H _ IH]; [destruct IL'|]. destruct IL' as [<-|IL']; [exists a; split; [left; reflexivity|exact H]|].
    destruct (IH IL') as (l & X1 & X2). exists l. split; [right; exact X1|exact X2]. }
  destruct X as (l & IL & J). clear J0. rewrite Forall_forall in SFA. specialize (SFA _ IL). specialize (PL _ IL).
  assert (SZA : Forall (fun w => size_ok pow (st_size (wl_state w))) (l_words l)).
  { rewrite Forall_forall in WIN. specialize (WIN _ PL). eapply Forall_impl; [|exact WIN]. intros w WI. apply FontsUsed.wl_state_in in WI. exact WI. }
  assert (TL : (Z.of_nat (tails pow (l_words l)) <= 10000)%Z).
  { rewrite Forall_forall in FR. specialize (FR _ PL). cbn [snd opt_list] in FR. assert (X := few_tails pow (l_words l)).
    change (frags_of pow (l_words l)) with (pieces pow (l_words l)) in FR. change (frags_of pow ws') with (frags pow ws') in FR. lia. }
  destruct (in_last _ _ PL) as [IR|LA].
  - destruct ws as [|w0 ws0].
    { cbn [indent_first] in I. apply Ok_inj in I. subst ws'.
      assert (X : forall p0, In p0 (placed cols out0) -> l_words (snd p0) = []).
      { destruct (ff_plain _ _ _ _ _ _ _ SH) as (ST & _). clear -ST. revert ST. generalize (placed cols out0). intros L ST. inversion ST as [|? w q l0 r z T ST']; subst.
        cbn [take_line fit_words] in T. apply Ok_inj in T. injection T as <- <-. inversion ST'; subst. intros p0 [<-|[]]. reflexivity. }
      specialize (X _ PL). cbn [snd] in X. rewrite (justify_none pow l l' ltac:(rewrite X; reflexivity) J). exact SFA. }
    specialize (SPC ltac:(discriminate)). rewrite Forall_forall in SPC. specialize (SPC _ IR). cbn [snd] in SPC. destruct SPC as [X|(X1 & X2 & X3)].
    + assert (N0 : tails pow (l_words l) = 0%nat).
      { apply no_tails. intros (w & J1 & J2). rewrite Forall_forall in X. specialize (X w J1). assert (Y := end_tail pow w). rewrite X in Y. auto. }
      apply (justify_none pow l l' N0) in J. subst l'. exact SFA.
    + exact (justify_fin pow l l' X3 SZA TL X1 X2 SFA J).
  - specialize (LS _ LA). cbn [snd] in LS. destruct (zero_small pow) as (Z1 & Z2). 
    assert (Z3 : val (l_space l) = 0) by (rewrite LS; apply abs_out in Z2; lra).
    rewrite (justify_full pow l l' SZA TL ltac:(rewrite LS; exact Z1) Z3 J). exact SFA.
Qed.
End Para.
