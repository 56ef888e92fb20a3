(** * FloatOptimum: the ragged lines of the optimal layout, measured in doubles.
    The algorithm keeps one running width for the whole paragraph; a line is judged by the
    difference of two of its values, so the rounding errors on a line are those of its own pieces. *)
From Coq Require Import ZArith Bool Reals.
From Flocq Require Import Core IEEE754.BinarySingleNaN.
From Verif Require Import Base Num Float64 FloatProofs NumInstances RoundErr Fonts State TextSpec StateProofs
  Words WordsSpec WordProofs WordOps LineSpec Firstfit FirstfitProofs FirstfitWidth KnuthPlass KPSpec KPProofs Optimum OptimumProofs OptimumLines FloatLines FloatWidths.
From Coq Require Import Lra Lia.
Open Scope R_scope.
Section Opt.
Context (pow : b64 -> nat -> b64) {ENV : Env (Float64 pow)}.
#[local] Hint Extern 0 Num => exact (Float64 pow) : typeclass_instances.
Context (k : Z) (e bx : R) (adv : box -> R) (G : box -> Prop) (tadv : tspace * state -> R) (GT : tspace * state -> Prop).
Hypothesis SK : sane k.
Hypothesis EK : 2 * ulp2 k <= e.
Hypothesis B0 : 0 <= bx.
Hypothesis GB : forall b, G b -> close (box_width b) (adv b) e /\ Rabs (adv b) <= bx.
Hypothesis GH : forall b, G b -> close (box_width (box_with_hyphen b)) (adv (box_with_hyphen b)) e /\ Rabs (adv (box_with_hyphen b)) <= bx.
Hypothesis GTB : forall t, GT t -> close (tspace_width (fst t)) (tadv t) e /\ Rabs (tadv t) <= bx.
Notation d := (d k e).
Notation wl_adv := (wl_adv pow adv tadv).
Notation line_adv := (line_adv pow adv tadv).
Notation wl_good := (wl_good pow G GT).
Let x64 := @num (Float64 pow).
Definition frag_adv (f : fragment) : R := wl_adv (fr_txt f).
Definition break_adv (f : fragment) : R := match fr_break f with Some w => wl_adv w | None => 0 end.
Definition weight (f : fragment) : nat := match fr_txt f with WBox _ => 1%nat | _ => 2%nat end.
Definition weights (l : list (fragment * kbox)) : nat := list_sum (map (fun p => weight (fst p)) l).
Definition advs (l : list (fragment * kbox)) : R := Rsum (map (fun p => frag_adv (fst p)) l).
Definition hyphen_err (f : fragment) : R := match fr_break f with Some _ => d | None => ulp2 k end.
(** one fragment, started at [x] *)
Inductive stepf (x : x64) : fragment -> kbox -> Prop :=
| sf_box b wh c kb : G b -> wh = b \/ wh = box_with_hyphen b -> kb_incl_space kb = nadd x (box_width b) ->
    kb_incl_hyphen kb = nadd x (box_width wh) -> stepf x (mkFrag (WBox b) (Some (WBox wh)) c) kb
| sf_word b t st c kb : G b -> GT (t, st) -> kb_incl_hyphen kb = nadd x (box_width b) ->
    kb_incl_space kb = nadd (nadd x (box_width b)) (tspace_width t) -> stepf x (mkFrag (WWord (mkWord [b] (Some t) st)) (Some (WBox b)) c) kb
| sf_space t st c kb : GT (t, st) -> kb_incl_hyphen kb = nadd x n0 ->
    kb_incl_space kb = nadd (nadd x n0) (tspace_width t) -> stepf x (mkFrag (WWord (mkWord [] (Some t) st)) None c) kb.
Inductive chain : x64 -> list (fragment * kbox) -> x64 -> Prop :=
| ch_nil x : chain x [] x
| ch_cons x f b r y : stepf x f b -> chain (kb_incl_space b) r y -> chain x ((f, b) :: r) y.
Lemma chain_inv x f b r y : chain x ((f, b) :: r) y -> stepf x f b /\ chain (kb_incl_space b) r y.
Proof. intros H. inversion H; auto. Qed.
Lemma chain_app x a y b z : chain x a y -> chain y b z -> chain x (a ++ b) z.
Proof. induction 1; cbn; auto. intros. constructor; auto. Qed.
Lemma chain_split a : forall x b z, chain x (a ++ b) z -> exists y, chain x a y /\ chain y b z.
Proof.
  induction a as [|[f kb] a IH]; intros x b z H; cbn in H; [exists x; split; [constructor|exact H]|].
  apply chain_inv in H as (S & H). destruct (IH _ _ _ H) as (y & A & B). exists y. split; [constructor; auto|exact B].
Qed.
Lemma chain_end a f b x y : chain x (a ++ [(f, b)]) y -> y = kb_incl_space b.
Proof. intros H. apply chain_split in H as (z & _ & H). apply chain_inv in H as (_ & H). inversion H; reflexivity. Qed.

(** ** the fragments of words *)
Lemma chunk_chain bs : Forall G bs -> forall (x st sh : x64), let (l, y) := chunk_boxes bs x st sh in chain x l y /\ weights l = List.length bs.
Proof.
  induction 1 as [|b bs Hb _ IH]; intros x st sh; cbn [chunk_boxes]; [split; [constructor|reflexivity]|].
  specialize (IH (nadd x (box_width b)) st sh). destruct (chunk_boxes bs _ st sh) as (l & y). destruct IH as (I1 & I2). split.
  - constructor; [|exact I1]. apply sf_box; auto.
  - cbn [List.length]. rewrite <- I2. reflexivity.
Qed.
Lemma weights_app a b : weights (a ++ b) = (weights a + weights b)%nat.
Proof. unfold weights. rewrite map_app. apply list_sum_app. Qed.
Lemma word_chain just w (x st sh : x64) l y st' sh' : wl_good w -> flat w -> word_boxes just w x st sh = Ok (l, y, st', sh') ->
  chain x l y /\ (weights l <= List.length (wl_boxes w) + 2)%nat.
Proof.
  intros (G1 & G2) F H. unfold word_boxes in H.
  assert (U : exists v c, unwrap w = (WWord v, c) /\ wl_boxes w = w_boxes v /\ wl_end pow w = wl_end pow (WWord v)).
  { destruct w as [b|v|[b|v|w c'] c]; cbn in F; try contradiction; [exists v, NoOp|exists v, c]; repeat split. }
  destruct U as (v & c & U & UB & UE). rewrite U in H. rewrite UB in G1 |- *. rewrite UE in G2. cbn [wl_boxes wl_tail wl_state wl_end] in *. clear U UB UE F w.
  assert (CH := chunk_chain (removelast (w_boxes v))).
  assert (BO : Forall G (removelast (w_boxes v))).
  { destruct (rev (w_boxes v)) as [|b r] eqn:R.
    - assert (E : w_boxes v = []) by (rewrite <- (rev_involutive (w_boxes v)), R; reflexivity). rewrite E. constructor.
    - rewrite (removelast_last_rev _ _ _ R) in G1. apply Forall_app in G1. apply G1. }
  specialize (CH BO x st sh). destruct (chunk_boxes (removelast (w_boxes v)) x st sh) as (ch & w1). destruct CH as (C1 & C2).
  assert (LO : forall b r, rev (w_boxes v) = b :: r -> G b /\ List.length (w_boxes v) = S (weights ch)).
  { intros b r R. rewrite (removelast_last_rev _ _ _ R) in G1. apply Forall_app in G1 as (_ & G1). split; [exact (Forall_inv G1)|].
    rewrite (removelast_last_rev _ _ _ R), app_length, C2. cbn. lia. }
  destruct (w_tail v) as [t|]; cbn [option_map] in G2.
  - apply Ok_inj in H. injection H as <- <- _ _. rewrite weights_app. destruct (rev (w_boxes v)) as [|b r] eqn:R.
    + assert (E : w_boxes v = []) by (rewrite <- (rev_involutive (w_boxes v)), R; reflexivity).
      rewrite E in C2 |- *. cbn in C2. split; [|rewrite C2; cbn; lia]. eapply chain_app; [exact C1|].
      constructor; [|constructor]. apply sf_space; auto.
    + destruct (LO b r eq_refl) as (L1 & L2). split; [|rewrite L2; cbn; lia]. eapply chain_app; [exact C1|].
      constructor; [|constructor]. apply sf_word; auto.
  - destruct (rev (w_boxes v)) as [|b r] eqn:R; [discriminate|]. destruct (LO b r eq_refl) as (L1 & L2).
    apply Ok_inj in H. injection H as <- <- _ _. rewrite weights_app. split; [|rewrite L2; cbn; lia]. eapply chain_app; [exact C1|].
    constructor; [|constructor]. apply sf_box; auto.
Qed.
Lemma words_chain just ws : Forall wl_good ws -> Forall flat ws -> forall (x st sh : x64) l, words_boxes just ws x st sh = Ok l ->
  (exists y, chain x l y) /\ (weights l <= list_sum (map (fun w => List.length (wl_boxes w) + 2) ws))%nat.
Proof.
  induction 1 as [|w ws Gw _ IH]; intros F x st sh l H; cbn [words_boxes] in H.
  - apply Ok_inj in H. subst l. split; [exists x; constructor|cbn; lia].
  - apply bind_ok in H as ([[[l1 y1] st1] sh1] & E1 & H). apply bind_ok in H as (l2 & E2 & H). apply Ok_inj in H. subst l.
    destruct (word_chain _ _ _ _ _ _ _ _ _ Gw (Forall_inv F) E1) as (A1 & A2). destruct (IH (Forall_inv_tail F) _ _ _ _ E2) as ((y & A3) & A4).
    split; [exists y; eapply chain_app; eauto|]. rewrite weights_app. cbn [map list_sum fold_right]. unfold list_sum in *. lia.
Qed.

(** ** the errors *)
Lemma d_bounds : 0 < ulp2 k /\ 3 * ulp2 k <= d.
Proof. assert (U := ulp2_pos k). unfold d. lra. Qed.
Lemma step_near x f b : stepf x f b -> fin x -> Rabs (val x) + INR (weight f) * (bx + d) <= cap k ->
  close (kb_incl_space b) (val x + frag_adv f) (INR (weight f) * d) /\ Rabs (frag_adv f) <= INR (weight f) * bx
  /\ close (kb_incl_hyphen b) (val x + break_adv f) (hyphen_err f) /\ Rabs (break_adv f) <= bx.
Proof.
  destruct d_bounds as (U & D). intros H FX C.
  destruct H as [b wh c kb Hb Hw E1 E2|b t st c kb Hb Ht E1 E2|t st c kb Ht E1 E2]; cbn [weight fr_txt] in C |- *; unfold frag_adv, break_adv, hyphen_err; cbn [fr_txt fr_break].
  - change (INR 1) with 1 in *. destruct (GB b Hb) as (A1 & A2).
    assert (W1 : wl_adv (WBox b) = adv b) by (unfold FloatLines.wl_adv; cbn; lra). assert (W2 : wl_adv (WBox wh) = adv wh) by (unfold FloatLines.wl_adv; cbn; lra). rewrite W1, W2.
    assert (HW : close (box_width wh) (adv wh) e /\ Rabs (adv wh) <= bx) by (destruct Hw as [-> | ->]; [apply GB|apply GH]; exact Hb). destruct HW as (A3 & A4).
    assert (N : forall v a, close v a e -> Rabs a <= bx -> close (badd x v) (val x + a) d).
    { intros v a V1 V2. eapply close_weak; [|apply (close_add k x v (val x) a 0 e SK (exact_close _ FX) V1)]; unfold d; [lra|].
      assert (T := Rabs_triang (val x) a). unfold FloatLines.d in C. lra. }
    split; [|split; [lra|split; [|exact A4]]].
    + rewrite E1. rewrite Rmult_1_l. apply N; auto.
    + rewrite E2. apply N; auto.
  - change (INR 2) with (1 + 1) in *. destruct (GB b Hb) as (A1 & A2). destruct (GTB (t, st) Ht) as (A3 & A4). cbn [fst] in A3.
    assert (W1 : wl_adv (WBox b) = adv b) by (unfold FloatLines.wl_adv; cbn; lra).
    assert (W2 : wl_adv (WWord (mkWord [b] (Some t) st)) = adv b + tadv (t, st)) by (unfold FloatLines.wl_adv; cbn; lra). rewrite W1, W2.
    assert (N : close (badd x (box_width b)) (val x + adv b) d).
    { eapply close_weak; [|apply (close_add k x _ (val x) _ 0 e SK (exact_close _ FX) A1)]; unfold d; [lra|].
      assert (T := Rabs_triang (val x) (adv b)). unfold FloatLines.d in C. lra. }
    assert (T := Rabs_triang (val x) (adv b)). assert (T2 := Rabs_triang (val x + adv b) (tadv (t, st))). assert (T3 := Rabs_triang (adv b) (tadv (t, st))).
    split; [|split; [lra|split; [rewrite E1; exact N|exact A2]]].
    rewrite E2. change (nadd x (box_width b)) with (badd x (box_width b)). rewrite <- Rplus_assoc.
    eapply close_weak; [|apply (close_add k _ _ _ _ d e SK N A3)]; unfold FloatLines.d in *; lra.
  - change (INR 2) with (1 + 1) in *. destruct (GTB (t, st) Ht) as (A3 & A4). cbn [fst] in A3.
    assert (W2 : wl_adv (WWord (mkWord [] (Some t) st)) = tadv (t, st)) by (unfold FloatLines.wl_adv; cbn; lra). rewrite W2.
    assert (N : close (badd x (@n0 (Float64 pow))) (val x + 0) (ulp2 k)).
    { eapply close_weak; [|apply (close_add k x _ (val x) 0 0 0 SK (exact_close _ FX) (zero_close pow))]; [lra|]. rewrite !Rplus_0_r. unfold FloatLines.d in C. lra. }
    rewrite Rplus_0_r in N |- *. assert (T := Rabs_triang (val x) (tadv (t, st))).
    split; [|split; [lra|split; [rewrite E1; exact N|rewrite Rabs_R0; exact B0]]].
    rewrite E2. change (nadd x n0) with (badd x (@n0 (Float64 pow))).
    eapply close_weak; [|apply (close_add k _ _ _ _ (ulp2 k) e SK N A3)]; unfold FloatLines.d in *; lra.
Qed.
Lemma chain_near x l y : chain x l y -> fin x -> Rabs (val x) + INR (weights l) * (bx + d) <= cap k ->
  close y (val x + advs l) (INR (weights l) * d) /\ Rabs (advs l) <= INR (weights l) * bx.
Proof.
  destruct d_bounds as (U & D). induction 1 as [x|x f b r y S H IH]; intros FX C.
  - change (INR (weights [])) with 0. change (advs []) with 0. rewrite Rabs_R0. split; [|lra].
    rewrite Rplus_0_r, Rmult_0_l. exact (exact_close _ FX).
  - change (weights ((f, b) :: r)) with (weight f + weights r)%nat in *. change (advs ((f, b) :: r)) with (frag_adv f + advs r). rewrite plus_INR in *.
    assert (P1 := pos_INR (weight f)). assert (P2 := pos_INR (weights r)).
    assert (Q2 : 0 <= INR (weights r) * (bx + d)) by (apply Rmult_le_pos; lra).
    destruct (step_near x f b S FX ltac:(lra)) as ((F1 & A1) & A2 & _).
    assert (X : Rabs (val (kb_incl_space b)) <= Rabs (val x) + INR (weight f) * (bx + d)).
    { replace (val (kb_incl_space b)) with (val x + frag_adv f + (val (kb_incl_space b) - (val x + frag_adv f))) by ring.
      eapply Rle_trans; [apply Rabs_triang|]. assert (T := Rabs_triang (val x) (frag_adv f)). lra. }
    destruct (IH F1 ltac:(lra)) as ((F2 & A3) & A4). split.
    + split; [exact F2|]. apply abs_out in A1. apply abs_out in A3. apply abs_in; lra.
    + eapply Rle_trans; [apply Rabs_triang|]. lra.
Qed.

(** ** a line *)
Lemma with_cmd_adv w c : wl_adv (with_cmd w c) = wl_adv w.
Proof. destruct c; reflexivity. Qed.
Lemma with_cmd_boxes (w : wordlike) c : wl_boxes (with_cmd w c) = wl_boxes w.
Proof. destruct c; reflexivity. Qed.
Definition frags (ws : list wordlike) : nat := list_sum (map (fun w => List.length (wl_boxes w) + 2)%nat ws).
Lemma frags_app a b : frags (a ++ b) = (frags a + frags b)%nat.
Proof. unfold frags. rewrite map_app. apply list_sum_app. Qed.
Lemma line_words_adv x init last y ws : chain x (init ++ [last]) y -> line_words (map fst init ++ [fst last]) = Ok ws ->
  line_adv ws = advs init + break_adv (fst last)
  /\ INR (weights init) * d + hyphen_err (fst last) + 2 * ulp2 k <= INR (S (frags ws)) * d.
Proof.
  destruct d_bounds as (U & D). intros H E.
  assert (BI : line_adv (map frag_word (map fst init)) = advs init).
  { unfold advs. clear. induction init as [|p l IH]; cbn [map]; [reflexivity|]. change (line_adv (frag_word (fst p) :: map frag_word (map fst l))) with (wl_adv (frag_word (fst p)) + line_adv (map frag_word (map fst l))).
    rewrite IH. unfold frag_word. rewrite with_cmd_adv. reflexivity. }
  assert (BW : (weights init <= frags (map frag_word (map fst init)))%nat).
  { apply chain_split in H as (z & H & _). clear -H. induction H as [x|x f b r y S H IH]; [cbn; lia|].
    change (weights ((f, b) :: r)) with (weight f + weights r)%nat. cbn [map fst]. change (frags (frag_word f :: map frag_word (map fst r))) with ((List.length (wl_boxes (frag_word f)) + 2) + frags (map frag_word (map fst r)))%nat.
    unfold frag_word at 1. rewrite with_cmd_boxes. enough (weight f <= 2)%nat by lia. unfold weight. destruct (fr_txt f); lia. }
  assert (SL : exists z, stepf z (fst last) (snd last)).
  { apply chain_split in H as (z & _ & H). exists z. destruct last as [lf lb]. apply chain_inv in H as (H & _). exact H. }
  destruct SL as (z & SL). unfold line_words in E. rewrite rev_app_distr in E. cbn [rev app] in E. rewrite rev_involutive in E.
  change (map (fun f => with_cmd (fr_txt f) (fr_cmd f)) (map fst init)) with (map frag_word (map fst init)) in E.
  apply le_INR in BW. rewrite S_INR. assert (PW := pos_INR (weights init)).
  assert (DW : INR (weights init) * d <= INR (frags (map frag_word (map fst init))) * d) by (apply Rmult_le_compat_r; lra).
  unfold break_adv, hyphen_err. destruct (fr_break (fst last)) as [tail|] eqn:B.
  - apply Ok_inj in E. subst ws. unfold FloatLines.line_adv in *. rewrite map_app, Rsum_app, BI. cbn [map Rsum]. rewrite with_cmd_adv. split; [ring|].
    rewrite frags_app, plus_INR. change (frags [with_cmd tail (fr_cmd (fst last))]) with ((List.length (wl_boxes (with_cmd tail (fr_cmd (fst last)))) + 2) + 0)%nat.
    rewrite !plus_INR. change (INR 2) with (1 + 1). change (INR 0) with 0. assert (P := pos_INR (List.length (wl_boxes (with_cmd tail (fr_cmd (fst last)))))).
    assert (0 <= INR (List.length (wl_boxes (with_cmd tail (fr_cmd (fst last))))) * d) by (apply Rmult_le_pos; lra). lra.
  - destruct (rev (map frag_word (map fst init))) as [|v r] eqn:RB.
    + apply Ok_inj in E. subst ws. assert (EI : map frag_word (map fst init) = []) by (rewrite <- (rev_involutive (map _ _)), RB; reflexivity).
      rewrite EI in BI, DW. split; [rewrite <- BI; cbn; ring|]. change (frags []) with 0%nat in *. change (INR 0) with 0 in *. lra.
    + apply Ok_inj in E. subst ws. assert (EI : map frag_word (map fst init) = rev r ++ [v]) by (rewrite <- (rev_involutive (map _ _)), RB; reflexivity).
      rewrite EI in BI, DW. unfold FloatLines.line_adv in *. rewrite map_app, Rsum_app in *. cbn [map Rsum] in *. rewrite with_cmd_adv. split; [lra|].
      assert (FE : frags (rev r ++ [with_cmd v (fr_cmd (fst last))]) = frags (rev r ++ [v])).
      { rewrite !frags_app. unfold frags at 2 4. cbn [map]. rewrite with_cmd_boxes. reflexivity. }
      rewrite FE. lra.
Qed.

(** ** the lines of a paragraph *)
Lemma line_start_chain (full a init rest : list (fragment * kbox)) last y f g h : full = a ++ init ++ last :: rest -> chain n0 full y ->
  line_start (map snd full) (List.length a) f g h -> chain n0 a f /\ exists z, chain f (init ++ [last]) z /\ chain z rest y.
Proof.
  intros EF H LS. rewrite EF in H. apply chain_split in H as (z & H1 & H2).
  assert (Z : z = f).
  { destruct (List.length a) as [|m] eqn:LA.
    - destruct a; [|discriminate]. destruct LS as (-> & _). inversion H1; reflexivity.
    - destruct LS as (p & q & X & _ & -> & _). destruct (@exists_last _ a) as (a' & (fx & bx0) & Ea); [destruct a; discriminate|].
      assert (Ln : List.length a' = m) by (rewrite Ea, app_length in LA; cbn in LA; lia).
      rewrite EF, Ea, !map_app, <- app_assoc in X. rewrite nth_error_app2 in X; rewrite map_length in *; [|lia]. rewrite Ln, Nat.sub_diag in X. cbn in X.
      assert (X' : p = bx0) by congruence. subst p. rewrite Ea in H1. eapply chain_end, H1. }
  subst z. split; [exact H1|]. change (last :: rest) with ([last] ++ rest) in H2. rewrite app_assoc in H2. apply chain_split in H2 as (z & H2 & H3). exists z. auto.
Qed.
Lemma chain_last x init last y : chain x (init ++ [last]) y -> exists z, chain x init z /\ stepf z (fst last) (snd last).
Proof. intros H. apply chain_split in H as (z & H1 & H2). exists z. split; [exact H1|]. destruct last. apply chain_inv in H2 as (H2 & _). exact H2. Qed.
Lemma too_long_ratio : nltb (nmin (nZ (-2)) n0) (nZ (-1)) = true /\ nltb (nZ (-1)) (nmin (nZ (-2)) n0) = false /\ nltb (nZ (-2) : x64) (nZ (-1)) = true.
Proof. repeat split; vm_compute; reflexivity. Qed.
Lemma ragged_fit (full a init rest : list (fragment * kbox)) last y width i q (W : x64) ws :
  full = a ++ init ++ last :: rest -> chain n0 full y -> width i = W -> fin W -> Rabs (val W) + INR (S (weights full)) * (bx + d) <= cap k ->
  line_ratio (map snd full) width true i (List.length a) (List.length a + S (List.length init)) q -> q <> nZ (-2) ->
  line_words (map fst init ++ [fst last]) = Ok ws -> line_adv ws <= val W + INR (S (frags ws)) * d.
Proof.
  destruct d_bounds as (U & D). intros EF CH EW FW C (b & f & g & h & _ & N & LS & R) NQ LW.
  destruct (line_start_chain _ _ _ _ _ _ _ _ _ EF CH LS) as (C1 & z & C2 & C3).
  destruct (line_words_adv _ _ _ _ _ C2 LW) as (-> & CO). eapply Rle_trans; [|apply Rplus_le_compat_l; exact CO]. clear CO.
  assert (N' : nth_error (map snd full) (List.length a + List.length init) = Some (snd last)).
  { rewrite EF, !map_app. rewrite nth_error_app2; rewrite map_length; [|lia].
    replace (_ - _)%nat with (List.length init) by lia. rewrite nth_error_app2; rewrite map_length; [|lia].
    rewrite Nat.sub_diag. reflexivity. }
  replace (List.length a + S (List.length init) - 1)%nat with (List.length a + List.length init)%nat in N by lia.
  rewrite N' in N. injection N as <-. clear N' LS.
  assert (WF : (weights full = weights a + (weights init + weight (fst last)) + weights rest)%nat).
  { rewrite EF. change (last :: rest) with ([last] ++ rest). rewrite !weights_app. unfold weights at 3. cbn. lia. }
  assert (PB : forall m, 0 <= INR m * (bx + d)) by (intros m; apply Rmult_le_pos; [apply pos_INR|lra]).
  rewrite S_INR, WF, !plus_INR in C. assert (P1 := PB (weights a)). assert (P2 := PB (weights init)). assert (P3 := PB (weight (fst last))). assert (P4 := PB (weights rest)).
  assert (PW := Rabs_pos (val W)).
  rewrite !Rmult_plus_distr_r in C. rewrite !Rmult_plus_distr_r in P1, P2, P3, P4 |- * || idtac.
  assert (ZF : fin (@n0 (Float64 pow)) /\ val (@n0 (Float64 pow)) = 0).
  { destruct (zero_close pow) as (A & B). split; [exact A|]. rewrite Rminus_0_r in B. assert (V := Rabs_pos (val (@n0 (Float64 pow)))). destruct (Req_dec (val (@n0 (Float64 pow))) 0) as [E|E]; [exact E|]. apply Rabs_pos_lt in E. lra. }
  destruct ZF as (ZF & ZV).
  assert (NB : forall m, INR m * (bx + d) = INR m * bx + INR m * d) by (intros; ring).
  rewrite ?NB in *.
  destruct (chain_near n0 a f C1 ZF) as ((FF & A1) & A2). { rewrite ZV, Rabs_R0, NB. lra. }
  rewrite ZV, Rplus_0_l in A1.
  assert (BF : Rabs (val f) <= INR (weights a) * bx + INR (weights a) * d).
  { apply abs_out in A1. apply abs_out in A2. apply abs_in; lra. }
  destruct (chain_last _ _ _ _ C2) as (v & C4 & SL).
  destruct (chain_near f init v C4 FF) as ((FV & A3) & A4). { rewrite NB. lra. }
  assert (BV : Rabs (val v) <= Rabs (val f) + INR (weights init) * bx + INR (weights init) * d).
  { replace (val v) with (val v - (val f + advs init) + (val f + advs init)) by ring. eapply Rle_trans; [apply Rabs_triang|]. assert (T := Rabs_triang (val f) (advs init)). lra. }
  destruct (step_near v (fst last) (snd last) SL FV) as (_ & _ & (FS & A5) & A6). { rewrite NB. lra. }
  set (stop := kb_incl_hyphen (snd last)) in *.
  assert (HE : hyphen_err (fst last) <= d) by (unfold hyphen_err; destruct (fr_break (fst last)); lra).
  assert (LL : 1 <= INR (weight (fst last))). { unfold weight. destruct (fr_txt (fst last)); [apply Rle_refl| |]; cbn; lra. }
  assert (LB : bx + d <= INR (weight (fst last)) * bx + INR (weight (fst last)) * d). { rewrite <- NB. rewrite <- (Rmult_1_l (bx + d)) at 1. apply Rmult_le_compat_r; lra. }
  assert (NS : close stop (val f + (advs init + break_adv (fst last))) (INR (weights init) * d + hyphen_err (fst last))).
  { split; [exact FS|]. apply abs_out in A3. apply abs_out in A5. apply abs_in; lra. }
  set (nat0 := advs init + break_adv (fst last)) in *.
  assert (BN : Rabs nat0 <= INR (weights init) * bx + bx). { eapply Rle_trans; [apply Rabs_triang|]. lra. }
  assert (HP : 0 < hyphen_err (fst last)) by (unfold hyphen_err; destruct (fr_break (fst last)); lra).
  assert (IP : 0 <= INR (weights init) * d) by (apply Rmult_le_pos; [apply pos_INR|lra]).
  assert (BS : Rabs (val W - (val f + nat0)) <= Rabs (val W) + Rabs (val f) + Rabs nat0).
  { unfold Rminus. eapply Rle_trans; [apply Rabs_triang|]. rewrite Rabs_Ropp. assert (T := Rabs_triang (val f) nat0). lra. }
  assert (S1 : close (bsub W stop) (val W - (val f + nat0)) (0 + (INR (weights init) * d + hyphen_err (fst last)) + ulp2 k)).
  { apply (close_sub k W stop _ _ _ _ SK (exact_close _ FW) NS). lra. }
  assert (BE : Rabs (val W - (val f + nat0) + val f) <= Rabs (val W) + Rabs nat0).
  { replace (val W - (val f + nat0) + val f) with (val W + - nat0) by ring. eapply Rle_trans; [apply Rabs_triang|]. rewrite Rabs_Ropp. lra. }
  assert (S2 : close (badd (bsub W stop) f) (val W - (val f + nat0) + val f) (0 + (INR (weights init) * d + hyphen_err (fst last)) + ulp2 k + 0 + ulp2 k)).
  { apply (close_add k _ _ _ _ _ _ SK S1 (exact_close _ FF)). lra. }
  destruct S2 as (F2 & S2). rewrite EW in R.
  assert (NN : nleb n0 (badd (bsub W stop) f) = true) by (inversion R; [assumption|congruence]).
  apply (le64 pow n0 (badd (bsub W stop) f) ZF F2) in NN. rewrite ZV in NN. apply abs_out in S2. lra.
Qed.
Lemma ragged_lines_near ws fuel cols ae lead avoid tolerance P out :
  Forall wl_good ws -> Forall flat ws -> ws <> [] -> (forall i, (0 <= nfloordiv (snd (cols i)) lead)%Z) ->
  (forall i, fin (fst (cols i)) /\ Rabs (val (fst (cols i))) + INR (S (frags ws)) * (bx + d) <= cap k) ->
  opt_shape fuel ws cols ae lead avoid true tolerance P = Ok out ->
  Forall (fun p : x64 * oline => line_adv (ol_words (snd p)) <= val (fst p) + INR (S (frags (ol_words (snd p)))) * d) (placed cols out).
Proof.
  intros G1 FL NE RM C H. destruct d_bounds as (U & D).
  assert (CW : Forall (fun w : x64 => fin w /\ Rabs (val w) + INR (S (frags ws)) * (bx + d) <= cap k) (map fst (placed cols out))).
  { clear -C. revert cols C. induction out as [|ls cs IH]; intros cols C; cbn [placed map]; [constructor|]. rewrite map_app. apply Forall_app. split.
    - apply Forall_forall. intros w I. apply in_map_iff in I as (p & <- & I). apply in_map_iff in I as (l & <- & _). apply (C 0%nat).
    - apply IH. intros i. apply (C (S i)). }
  destruct (out_lines _ _ _ _ _ _ _ _ _ _ RM FL NE H) as (full & width & t & ls & E & R & PL & _). cbn [negb] in E.
  destruct (words_chain _ _ G1 FL _ _ _ _ E) as ((y & CH) & WE).
  apply Forall_forall. intros p I. apply In_nth_error in I as (m & I). pose proof I as IC. rewrite PL in I. apply nth_combine in I as (N & EW). cbn [plus] in EW.
  assert (IW : fin (fst p) /\ Rabs (val (fst p)) + INR (S (frags ws)) * (bx + d) <= cap k).
  { rewrite Forall_forall in CW. apply CW. apply nth_error_In in IC. apply in_map. exact IC. }
  assert (IW2 : Rabs (val (fst p)) + INR (S (weights full)) * (bx + d) <= cap k).
  { eapply Rle_trans; [|apply IW]. apply Rplus_le_compat_l. apply Rmult_le_compat_r; [lra|]. apply le_INR. unfold frags. lia. }
  destruct IW as (FW & _). revert FW IW2. rewrite EW. destruct p as [W ln]. cbn [fst snd] in *. clear W EW IC PL CW RM H C. intros FW IW.
  revert FW IW. pattern m, ln.
  refine (rows_each full width true t (fun k0 _ ln => fin (width k0) -> Rabs (val (width k0)) + INR (S (weights full)) * (bx + d) <= cap k ->
    line_adv (ol_words ln) <= val (width k0) + INR (S (frags (ol_words ln))) * d) _ O O _ ls R [] full eq_refl eq_refl eq_refl m ln N).
  clear m ln N. intros j a init last rest q adj ln fin0 EF LR F1 F2 (v & LW & EV) _ FW IW. rewrite EV.
  eapply ragged_fit; [exact EF|exact CH|reflexivity|exact FW|exact IW|exact LR| |exact LW].
  destruct too_long_ratio as (T1 & T2 & T3). intros ->. destruct fin0.
  - destruct (F1 eq_refl) as (_ & EA & X). rewrite EA in X. congruence.
  - destruct (F2 eq_refl) as (_ & X). congruence.
Qed.
End Opt.
