(** * FirstfitWidth: first-fit lines in exact arithmetic. *)
From Coq Require Import QArith Qcanon Qround Lqa.
From Verif Require Import Base Gfmt FontSpec FontProofs Num Fonts State TextSpec StateProofs
  Words WordsSpec WordProofs WordOps Parse Render RenderSpec RenderProofs WordWidth LineSpec Firstfit FirstfitProofs.
Open Scope nat_scope.
Section Width.
Context {ENV : Env QcNum}.
Open Scope Qc_scope.
Ltac qring := lazymatch goal with |- @eq _ ?a ?b => change (@eq Qc a b) end; ring.

Lemma all_advance_app a b : all_advance (a ++ b) = all_advance a + all_advance b.
Proof.
  induction a as [|w a IH]; cbn [app all_advance fold_right].
  - symmetry. apply Qcplus_0_l.
  - fold (all_advance (a ++ b)) (all_advance a). rewrite IH. apply Qcplus_assoc.
Qed.
Lemma all_advance_one w : all_advance [w] = wl_advance w.
Proof. cbn. apply Qcplus_0_r. Qed.
Lemma all_advance_cons w r : all_advance (w :: r) = wl_advance w + all_advance r.
Proof. reflexivity. Qed.
Lemma prune_last_app a w : prune_last (a ++ [w]) = a ++ [wl_pruned w].
Proof. unfold prune_last. rewrite rev_app_distr. cbn. rewrite rev_involutive. reflexivity. Qed.
Lemma wl_advance_split w : wl_ok w -> wl_advance w = wl_advance (wl_pruned w) + wl_prunable w.
Proof. intros H. rewrite <- wl_width_ok, <- wl_pruned_width_ok by exact H. apply wl_width_split. Qed.

Lemma minus_nil (x : Qc) : x - all_advance [] = x.
Proof. change (all_advance []) with 0. ring. Qed.
Lemma fit_words_width ws : forall (sp : @num QcNum) c0 c sp' stop, Forall wl_ok ws ->
  fit_words ws sp c0 = (c, sp', stop) ->
  exists taken, c = c0 ++ taken /\ sp' = sp - all_advance taken
    /\ (taken <> [] -> all_advance (prune_last taken) <= sp)
    /\ (forall w r, stop = Some (w, r) -> sp' < wl_pruned_width w /\ ws = taken ++ w :: r)
    /\ (stop = None -> ws = taken).
Proof.
  induction ws as [|w r IH]; intros sp c0 c sp' stop H; cbn [fit_words].
  - injection 1 as <- <- <-. exists []. rewrite app_nil_r. split; [auto|].
    split; [symmetry; apply minus_nil|].
    split; [congruence|]. split; [discriminate|auto].
  - inversion H as [|? ? Hw Hr]; subst. destruct (nltb _ _) eqn:L.
    + injection 1 as <- <- <-. exists []. rewrite app_nil_r. split; [auto|].
      split; [symmetry; apply minus_nil|].
      split; [congruence|]. split; [|discriminate]. intros w' r' [= <- <-]. apply Qcltb_lt in L. auto.
    + apply Qcltb_nlt in L. intros E. apply IH in E as (t & -> & -> & I1 & I2 & I3); [|exact Hr].
      exists (w :: t). rewrite <- app_assoc. split; [reflexivity|].
      change (nsub sp (wl_width w)) with (sp - wl_width w) in *.
      rewrite all_advance_cons, <- (wl_width_ok w Hw).
      split; [set (x := wl_width w) in *; set (y := all_advance t) in *; clearbody x y; clear; qring|]. split.
      * intros _. destruct t as [|t0 t].
        -- cbn. rewrite <- wl_pruned_width_ok by exact Hw. rewrite Qcplus_0_r. exact L.
        -- specialize (I1 ltac:(discriminate)). rewrite (app_removelast_last w (l := t0 :: t)) in I1 |- * by discriminate.
           set (u := removelast (t0 :: t)) in *. rewrite app_comm_cons, prune_last_app. rewrite prune_last_app in I1.
           cbn [app]. rewrite all_advance_cons, <- (wl_width_ok w Hw).
           set (x := all_advance _) in *. set (y := wl_width w) in *. clearbody x y. clear -I1. qc.
      * split; [|intros S; rewrite I3 by exact S; reflexivity].
        intros w' r' S. destruct (I2 w' r' S) as [I4 I5]. split; [|rewrite I5; reflexivity].
        set (x := all_advance t) in *. set (y := wl_width w) in *. set (z := wl_pruned_width w') in *.
        clearbody x y z. clear -I4. qc.
Qed.
Lemma wl_hyphenate_fits w (sp : @num QcNum) : forall a b, wl_hyphenate w sp = Ok (Some a, b) -> wl_width a <= sp.
Proof.
  induction w as [b0|w|w IH c]; intros a b E; cbn [wl_hyphenate] in E.
  - apply Ok_inj in E. discriminate.
  - apply rmap_ok in E as ([x y] & E & E2). destruct x as [x|]; cbn in E2; [|discriminate]. injection E2 as -> ->.
    apply hyph_word in E as (pre & z & nb & r & _ & EA & _ & ET & F & _).
    cbn [wl_width]. unfold word_width, word_pruned_width. rewrite EA, ET.
    fold (bsum (pre ++ [box_with_hyphen z])). set (q := bsum _) in *. clearbody q. clear -F. qc.
  - apply rmap_ok in E as ([x y] & E & E2). cbn in E2. injection E2 as <- ->. eauto.
Qed.
Lemma with_cmd_boxes w c : wl_boxes (with_cmd w c) = wl_boxes w.
Proof. destruct c; reflexivity. Qed.
Lemma wl_minimal_one w a b : wl_minimal w = (a, b) -> (List.length (wl_boxes a) <= 1)%nat.
Proof.
  revert a b. induction w as [b0|w|w IH c]; intros a b E; cbn in E.
  - injection E as <- <-. auto.
  - unfold word_minimal in E. destruct w as [[|b1 [|b2 r]] t st]; cbn in E; injection E as <- <-; cbn; auto.
  - destruct (wl_minimal w) as [x y]. specialize (IH x y eq_refl). destruct y as [y|]; injection E as <- <-; auto.
    rewrite with_cmd_boxes. exact IH.
Qed.
Lemma take_line_width ws (W : @num QcNum) q l : Forall wl_ok ws -> take_line ws W = Ok (q, l) ->
  Forall wl_ok (l_words l) /\ Forall wl_ok (opt_list q)
  /\ l_width l = all_advance (l_words l)
  /\ (q <> None -> l_width l + l_space l = W /\ (l_width l <= W \/ one_fragment (l_words l)))
  /\ (q = None -> l_space l = 0 /\ (all_advance (prune_last (l_words l)) <= W \/ one_fragment (l_words l) \/ ws = [])).
Proof.
  intros H. unfold take_line. destruct (fit_words ws W []) as [[c sp] stop] eqn:F.
  apply (fit_words_width _ _ _ _ _ _ H) in F as (t & -> & -> & F1 & F2 & F3). cbn [app].
  assert (SPW : W - (W - all_advance t) = all_advance t) by (set (x := all_advance t); clearbody x; qring).
  destruct stop as [[w r]|].
  2:{ specialize (F3 eq_refl). subst t. intros E. injection E as <- <-. cbn [l_words l_width l_space opt_list].
      split; [exact H|]. split; [constructor|]. split; [exact SPW|]. split; [congruence|]. intros _.
      split; [reflexivity|]. destruct ws as [|w ws]; [right; right; reflexivity|left; apply F1; discriminate]. }
  destruct (F2 w r eq_refl) as [F4 EW]. clear F2 F3. rewrite EW in H. apply Forall_app in H as [Ht Hr].
  inversion Hr as [|? ? Hw Hr']; subst x l0.
  intros E. apply bind_ok in E as ([last dangling] & HY & E).
  destruct (wl_hyphenate_ok _ _ _ _ Hw HY) as [OD OL].
  destruct last as [lw|].
  - specialize (OL lw eq_refl). assert (FT := wl_hyphenate_fits _ _ _ _ HY).
    injection E as <- <-. cbn [l_words l_width l_space opt_list].
    split; [apply Forall_app; auto|]. split; [constructor; auto|].
    split; [rewrite all_advance_app, all_advance_one, <- (wl_width_ok lw OL);
            set (x := all_advance t); set (y := wl_width lw); clearbody x y;
            change (W - (W - x - y) = x + y); qring|].
    split; [|discriminate]. intros _. set (x := all_advance t) in *. set (y := wl_width lw) in *. clearbody x y.
    change (W - (W - x - y) + (W - x - y) = W /\ (W - (W - x - y) <= W \/ one_fragment (t ++ [lw]))).
    split; [qring|]. left. clear -FT. qc.
  - clear OL. destruct (rev t) as [|x rt] eqn:RT.
    + assert (t = []) as -> by (destruct t; auto; apply (f_equal (@List.length _)) in RT; rewrite rev_length in RT; discriminate).
      destruct (wl_minimal dangling) as [x leftover] eqn:M. assert (ONE := wl_minimal_one _ _ _ M).
      destruct (wl_minimal_ok _ _ _ OD M) as [OX OY].
      assert (FR : one_fragment [x]) by (exists x; auto).
      assert (WX : (W : @num QcNum) - (W - all_advance [] - wl_width x) = all_advance [x]).
      { rewrite all_advance_one, <- (wl_width_ok x OX). set (y := wl_width x). clearbody y. cbn [all_advance fold_right]. qring. }
      destruct leftover as [y|].
      * specialize (OY y eq_refl). injection E as <- <-. cbn [l_words l_width l_space opt_list].
        split; [auto|]. split; [auto|]. split; [exact WX|]. split; [|discriminate]. intros _.
        split; [|right; exact FR]. 
        change (W - (W - all_advance [] - wl_width x) + (W - all_advance [] - wl_width x) = W).
        set (y' := wl_width x). clearbody y'. cbn [all_advance fold_right]. qring.
      * destruct r as [|r0 r].
        -- injection E as <- <-. cbn [l_words l_width l_space opt_list].
           split; [auto|]. split; [auto|]. split; [rewrite all_advance_one; apply wl_width_ok, OX|].
           split; [congruence|]. intros _. split; [reflexivity|right; left; exact FR].
        -- injection E as <- <-. cbn [l_words l_width l_space opt_list].
           split; [auto|]. split; [auto|]. split; [exact WX|]. split; [|discriminate]. intros _.
           split; [|right; exact FR]. 
           change (W - (W - all_advance [] - wl_width x) + (W - all_advance [] - wl_width x) = W).
           set (y' := wl_width x). clearbody y'. cbn [all_advance fold_right]. qring.
    + assert (ET : t = rev rt ++ [x]) by (rewrite <- (rev_involutive t), RT; reflexivity).
      specialize (F1 ltac:(intros C; rewrite C in RT; discriminate)).
      assert (Hx : wl_ok x). { rewrite ET in Ht. apply Forall_app in Ht as [_ Ht]. inversion Ht; auto. }
      assert (PX := wl_advance_split x Hx).
      assert (AT : all_advance t = all_advance (rev rt) + wl_advance x) by (rewrite ET, all_advance_app, all_advance_one; reflexivity).
      assert (AP : all_advance (prune_last t) = all_advance (rev rt) + wl_advance (wl_pruned x))
        by (rewrite ET, prune_last_app, all_advance_app, all_advance_one; reflexivity).
      destruct (ntruthy (wl_prunable x)) eqn:TR; injection E as <- <-; cbn [l_words l_width l_space opt_list].
      * rewrite ET, removelast_last. 
        assert (OP : Forall wl_ok (rev rt ++ [wl_pruned x])).
        { rewrite ET in Ht. apply Forall_app in Ht as [Ht1 _]. apply Forall_app. split; auto using wl_pruned_ok. }
        split; [exact OP|]. split; [auto|].
        rewrite <- ET. rewrite all_advance_app, all_advance_one.
        set (a := all_advance (rev rt)) in *. set (b := wl_advance x) in *. set (p := wl_advance (wl_pruned x)) in *.
        set (z := wl_prunable x) in *. rewrite AT.
        change (W - (W - (a + b) + z) = a + p /\
         (Some (dangling :: r) <> None -> W - (W - (a+b) + z) + (W - (a+b) + z) = W
           /\ (W - (W - (a+b) + z) <= W \/ one_fragment (rev rt ++ [wl_pruned x])))
         /\ (Some (dangling :: r) = None -> W - (a+b) + z = 0 /\
            (all_advance (prune_last (rev rt ++ [wl_pruned x])) <= W \/ one_fragment (rev rt ++ [wl_pruned x]) \/ ws = []))).
        rewrite AP in F1. rewrite PX. clearbody a b p z. split; [qring|]. split; [|discriminate]. intros _. split; [qring|left].
        clear -F1. qc.
      * split; [exact Ht|]. split; [auto|]. split; [exact SPW|]. split; [|discriminate]. intros _.
        apply negb_false_iff in TR. apply Qceqb_eq in TR.
        change (W - (W - all_advance t) + (W - all_advance t) = W /\ (W - (W - all_advance t) <= W \/ one_fragment t)).
        rewrite SPW, AT. rewrite AP in F1. rewrite PX, TR. change (@n0 QcNum) with 0.
        set (a := all_advance (rev rt)) in *. set (p := wl_advance (wl_pruned x)) in *. clearbody a p.
        split; [qring|left]. clear -F1. qc. 
Qed.

(** ** lines of a paragraph *)
Lemma steps_width q ls z : steps q ls z -> Forall wl_ok (opt_list q) ->
  Forall (fun p => Forall wl_ok (l_words (snd p)) /\ l_width (snd p) = all_advance (l_words (snd p))) ls
  /\ Forall (fun p => l_width (snd p) + l_space (snd p) = fst p
                     /\ (l_width (snd p) <= fst p \/ one_fragment (l_words (snd p)))) (removelast ls)
  /\ (z = None -> opt_list q <> [] -> forall p, last (map Some ls) None = Some p ->
        l_space (snd p) = 0 /\ (all_advance (prune_last (l_words (snd p))) <= fst p \/ one_fragment (l_words (snd p)))).
Proof.
  induction 1 as [q|ws w q l r z T ST IH]; intros H.
  - split; [constructor|]. split; [constructor|]. discriminate.
  - cbn [opt_list] in *. destruct (take_line_width _ _ _ _ H T) as (T1 & T2 & T3 & T4 & T5).
    destruct (IH T2) as (I1 & I2 & I3). clear IH. split; [constructor; auto|]. destruct r as [|p0 r].
    + inversion ST; subst. split; [constructor|]. intros -> NE p E. cbn in E. injection E as <-.
      destruct (T5 eq_refl) as [T6 T7]. cbn. split; [exact T6|]. tauto.
    + assert (QN : q <> None) by (inversion ST; discriminate). split.
      * change (removelast ((w, l) :: p0 :: r)) with ((w, l) :: removelast (p0 :: r)). constructor; [exact (T4 QN)|exact I2].
      * intros Z NE p E. apply I3; auto. destruct q as [q|]; [|congruence]. eapply take_line_rest; eauto.
Qed.

(** ** justification *)
Lemma wl_extend_none w (x : @num QcNum) w' : wl_tail w = None -> wl_extend_tail w x = Ok w' -> w' = w.
Proof.
  destruct w as [b|w|w c]; cbn.
  - congruence.
  - unfold word_extend_tail. intros ->. cbn. congruence.
  - intros ->. congruence.
Qed.
Lemma tail_sizes_cons w ws : tail_sizes (w :: ws)
  = (match wl_tail w with Some _ => st_size (wl_state w) | None => 0 end : Qc) + tail_sizes ws.
Proof.
  unfold tail_sizes. cbn [filter]. destruct (wl_tail w); cbn [map].
  - apply nsum_cons_Qc.
  - symmetry. apply Qcplus_0_l.
Qed.
Lemma justify_words (per : Qc) ws ws' : Forall wl_ok ws ->
  mapM (fun w => wl_extend_tail w (@nmul QcNum per (st_size (wl_state w)))) ws = Ok ws' ->
  Forall wl_ok ws' /\ all_advance ws' = all_advance ws + per * tail_sizes ws.
Proof.
  intros H E. apply mapM_ok in E. induction E as [|w w' ws ws' E _ IH].
  - split; [constructor|]. change (tail_sizes []) with 0. cbn. ring.
  - inversion H as [|? ? Hw Hr]; subst. destruct (IH Hr) as [I1 I2].
    destruct (wl_extend_tail_ok _ _ _ Hw E) as (O & X & _). split; [constructor; auto|].
    rewrite !all_advance_cons, tail_sizes_cons, I2, <- (wl_width_ok w Hw), <- (wl_width_ok w' O).
    set (a := all_advance ws). set (t := tail_sizes ws). clearbody a t.
    destruct (wl_tail w) as [tl|] eqn:T.
    + rewrite X by discriminate. set (z := st_size _). set (v := wl_width w). clearbody z v.
      change (v + per * z + (a + per * t) = v + a + per * (z + t)). ring.
    + apply wl_extend_none in E; [|exact T]. subst w'. set (v := wl_width w). clearbody v.
      change (v + (a + per * t) = v + a + per * (0 + t)). ring.
Qed.
Lemma justify_width l l' : Forall wl_ok (l_words l) -> l_width l = all_advance (l_words l) ->
  justify l = Ok l' ->
  (tail_sizes (l_words l) = 0 -> l' = l)
  /\ (tail_sizes (l_words l) <> 0 -> all_advance (l_words l') = l_width l + l_space l
       /\ l_width l' = l_width l + l_space l /\ l_space l' = 0 /\ Forall wl_ok (l_words l')).
Proof.
  intros H HW. unfold justify, pdiv. destruct (neqb _ _) eqn:Z.
  - apply Qceqb_eq in Z. intros E. apply Ok_inj in E. subst l'. split; [auto|]. intros C. contradiction C.
  - apply Qceqb_neq in Z. intros E. apply bind_ok in E as (ws & E1 & E). apply Ok_inj in E. subst l'.
    split; [intros C; contradiction Z|]. intros _. apply justify_words in E1 as [J1 J2]; [|exact H].
    cbn [l_words l_width l_space]. split; [|auto]. rewrite J2, HW.
    change (ndiv (l_space l) (tail_sizes (l_words l))) with ((l_space l : Qc) / tail_sizes (l_words l)).
    set (t := tail_sizes (l_words l)) in *. set (s := l_space l). set (a := all_advance _). clearbody t s a.
    change (a + s / t * t = a + s). rewrite Qcmult_comm, Qcmult_div_r; auto.
Qed.
(** justification never fails on words with non-zero font sizes *)
Lemma wl_extend_total w (x : @num QcNum) :
  (fix go w := match w with WBox _ => True | WWord w => w_tail w <> None -> st_size (w_state w) <> 0 | WCmd w _ => go w end) w ->
  exists w', wl_extend_tail w x = Ok w'.
Proof.
  induction w as [b|w|w IH c]; cbn [wl_extend_tail]; intros H.
  - eauto.
  - unfold word_extend_tail. destruct (w_tail w) as [t|] eqn:T; cbn; [|eauto].
    destruct (ntruthy x); cbn; [|eauto]. unfold tspace_stretch, pdiv.
    destruct (neqb (st_size (w_state w)) n0) eqn:Z; cbn; [|eauto]. apply Qceqb_eq in Z.
    exfalso. apply H in Z; auto. congruence.
  - destruct (wl_tail w); [|eauto]. destruct (ntruthy x); [|eauto]. destruct (IH H) as [w' ->]. cbn. eauto.
Qed.
Lemma tail_sizes_pos ws : (forall w, In w ws -> wl_tail w <> None -> 0 < st_size (wl_state w)) ->
  0 <= tail_sizes ws /\ ((exists w, In w ws /\ wl_tail w <> None) -> 0 < tail_sizes ws).
Proof.
  induction ws as [|w ws IH]; intros H.
  - split; [apply Qcle_refl|]. intros (w & [] & _).
  - destruct IH as [I1 I2]; [intros; apply H; auto; right; auto|]. rewrite tail_sizes_cons.
    specialize (H w (or_introl eq_refl)). destruct (wl_tail w) as [t|] eqn:T.
    + specialize (H ltac:(discriminate)). set (z := st_size _) in *. set (v := tail_sizes ws) in *. clearbody z v.
      assert (P : 0 < z + v) by (clear -H I1; change (z : @num QcNum) with z in *; qc).
      split; [apply Qclt_le_weak, P|auto].
    + rewrite Qcplus_0_l. split; [exact I1|]. intros (x & [->|I] & N); [congruence|]. apply I2. eauto.
Qed.

(** ** room *)
Lemma floor_lines (h lead : Qc) (n : Z) : 0 < lead -> (n <= Qfloor (this (h / lead)))%Z ->
  Q2Qc (inject_Z n) * lead <= h.
Proof.
  intros L H. assert (F := Qfloor_le (this (h / lead))).
  assert (N : (inject_Z n <= this (h / lead))%Q).
  { apply Qle_trans with (inject_Z (Qfloor (this (h / lead)))); auto. rewrite <- Zle_Qle. exact H. }
  assert (N' : Q2Qc (inject_Z n) <= h / lead).
  { unfold Qcle. rewrite this_Q2Qc. exact N. }
  apply (Qcmult_le_compat_r _ _ lead) in N'; [|apply Qclt_le_weak, L].
  replace (h / lead * lead) with h in N'; auto. rewrite Qcmult_comm, Qcmult_div_r; auto. intros ->. discriminate L.
Qed.
Lemma floor_nonneg (h lead : Qc) (n : Z) : 0 < lead -> Q2Qc (inject_Z n) * lead <= h ->
  (n <= Qfloor (this (h / lead)))%Z.
Proof.
  intros L H. assert (Q2Qc (inject_Z n) <= h / lead).
  { apply Qcmult_lt_0_le_reg_r with lead; auto.
    replace (h / lead * lead) with h; auto. rewrite Qcmult_comm, Qcmult_div_r; auto. intros ->. discriminate L. }
  unfold Qcle in H0. rewrite this_Q2Qc in H0. apply Qfloor_resp_le in H0. rewrite Qfloor_Z in H0. exact H0.
Qed.
Definition nlines (n : nat) : Qc := Q2Qc (inject_Z (Z.of_nat n)).
Lemma count_room (h lead : Qc) ae (n : nat) : 0 < lead ->
  (Z.of_nat n <= Z.max 0 (@max_line_count QcNum h lead ae))%Z ->
  n = O \/ nlines n * lead <= h \/ (n = 1%nat /\ ae = false /\ 0 <= h /\ h < lead).
Proof.
  intros L. unfold max_line_count. change (@nfloordiv QcNum h lead) with (Qfloor (this (h / lead))).
  destruct (Z.eqb_spec (Qfloor (this (h / lead))) 0) as [Z0|Z0]; intros H.
  - destruct ae; [left; lia|]. destruct n as [|[|n]]; [auto| |lia]. right; right.
    split; [auto|]. split; [auto|]. split.
    + replace 0 with (Q2Qc (inject_Z 0) * lead) by (change (Q2Qc (inject_Z 0)) with 0; ring).
      apply floor_lines; auto. lia.
    + destruct (Qclt_le_dec h lead) as [|C]; auto. exfalso.
      assert (1 <= Qfloor (this (h / lead)))%Z; [|lia]. apply floor_nonneg; auto.
      change (Q2Qc (inject_Z 1)) with 1. rewrite Qcmult_1_l. exact C.
  - destruct n as [|n]; [auto|]. right; left. apply floor_lines; auto. lia.
Qed.

(** ** totality *)
Definition sized (w : wordlike) : Prop := Forall (fun b => 0 <= @st_size QcNum (box_state b)) (wl_boxes w).
Lemma box_without_state b : box_state (box_without_init_kern b) = box_state b.
Proof. destruct b as [s|[|[s c] l] st]; cbn; auto. unfold slug_without_init_kern. destruct (sl_kern s) as [|[[|k] x] r]; reflexivity. Qed.
Lemma word_hyphenate_sized w (sp : @num QcNum) a b : sized (WWord w) -> word_hyphenate w sp = Ok (a, b) -> sized (WWord b).
Proof.
  unfold sized; cbn [wl_boxes]. intros H E. unfold word_hyphenate in E.
  assert (W0 : Forall (fun b => 0 <= @st_size QcNum (box_state b)) (w_boxes (word_without_init_kern w))).
  { unfold word_without_init_kern. destruct (w_boxes w) as [|b0 r] eqn:B.
    - destruct (w_tail w); [destruct (ntruthy _)|]; cbn; rewrite ?B; auto.
    - destruct (box_has_init_kern b0); cbn; [|rewrite B; auto]. inversion H; subst. constructor; auto.
      rewrite box_without_state. auto. }
  destruct (w_boxes w) as [|b0 rest] eqn:B; [apply Ok_inj in E; injection E as <- <-; auto|].
  destruct (nltb _ _); [apply Ok_inj in E; injection E as <- <-; auto|].
  apply bind_ok in E as ([[[fit st] nb] r] & HL & E). apply Ok_inj in E. injection E as <- <-. cbn.
  apply hyph_loop_parts in HL as (pre & x & E1 & _ & _). rewrite E1 in H. apply Forall_app in H as [_ H].
  inversion H as [|? ? _ H1]; subst. inversion H1; subst. constructor; auto. rewrite box_without_state. auto.
Qed.
Lemma with_cmd_sized w c : sized w -> sized (with_cmd w c).
Proof. destruct c; auto. Qed.
Lemma wl_hyphenate_sized w (sp : @num QcNum) : forall a b, sized w -> wl_hyphenate w sp = Ok (a, b) -> sized b.
Proof.
  induction w as [b0|w|w IH c]; intros a b H E; cbn [wl_hyphenate] in E.
  - apply Ok_inj in E. injection E as <- <-. auto.
  - apply rmap_ok in E as ([x y] & E & E2). cbn in E2. injection E2 as -> ->. eapply word_hyphenate_sized; eauto.
  - apply rmap_ok in E as ([x y] & E & E2). cbn in E2. injection E2 as -> ->. apply with_cmd_sized. eapply IH; eauto.
Qed.
Lemma wl_minimal_sized w : forall a b, sized w -> wl_minimal w = (a, Some b) -> sized b.
Proof.
  induction w as [b0|w|w IH c]; intros a b H E; cbn [wl_minimal] in E.
  - discriminate.
  - unfold word_minimal in E. destruct w as [[|b1 [|b2 r]] t st]; cbn in E; try discriminate. injection E as <- <-.
    unfold sized in *. cbn in *. inversion H as [|? ? _ H1]; subst. inversion H1; subst. constructor; auto.
    rewrite box_without_state. auto.
  - destruct (wl_minimal w) as [x [y|]] eqn:M; [|discriminate]. injection E as <- <-.
    apply with_cmd_sized. eapply IH; eauto.
Qed.
Lemma fit_words_sized ws (sp : @num QcNum) c sp' w r : fit_words ws sp [] = (c, sp', Some (w, r)) ->
  Forall sized ws -> sized w /\ Forall sized r.
Proof.
  intros F H. apply fit_words_spec in F as (t & _ & ->). apply Forall_app in H as [_ H]. inversion H; auto.
Qed.
Lemma fit_words_stop ws : forall (sp : @num QcNum) c0 c sp' w r, fit_words ws sp c0 = (c, sp', Some (w, r)) ->
  sp' < wl_pruned_width w.
Proof.
  induction ws as [|w0 ws IH]; intros sp c0 c sp' w r; cbn [fit_words]; [discriminate|].
  destruct (nltb _ _) eqn:L; [|apply IH]. injection 1 as <- <- <- <-. apply Qcltb_lt in L. exact L.
Qed.
Lemma take_line_sized ws (W : @num QcNum) q l : Forall sized ws -> take_line ws W = Ok (q, l) -> Forall sized (opt_list q).
Proof.
  intros H. unfold take_line. destruct (fit_words ws W []) as [[c sp] [[w r]|]] eqn:F.
  2:{ injection 1 as <- <-. constructor. }
  apply fit_words_sized in F as [Sw Sr]; [|exact H]. intros E. apply bind_ok in E as ([last dangling] & HY & E).
  apply wl_hyphenate_sized in HY; [|exact Sw].
  destruct last; [injection E as <- _; constructor; auto|].
  destruct (rev c); [|destruct (ntruthy _); injection E as <- _; constructor; auto].
  destruct (wl_minimal dangling) as [x [y|]] eqn:M; [injection E as <- _; constructor; auto; eapply wl_minimal_sized; eauto|].
  destruct r; injection E as <- _; auto.
Qed.
Lemma take_line_total ws (W : @num QcNum) : hyphens_nonneg -> Forall sized ws -> exists r, take_line ws W = Ok r.
Proof.
  intros HN H. unfold take_line. destruct (fit_words ws W []) as [[c sp] [[w r]|]] eqn:F; [|eauto].
  assert (ST := fit_words_stop _ _ _ _ _ _ _ F).
  apply fit_words_sized in F as [Sw Sr]; [|exact H].
  destruct (wl_hyph_total w sp) as (a & b & ->).
  - eapply Forall_impl; [|exact Sw]. intros x Hx. apply hyphen_widens_ok; auto.
  - exact ST.
  - cbn [bind]. destruct a; [eauto|]. destruct (rev c).
    + destruct (wl_minimal b) as [x [y|]]; [eauto|]. destruct r; eauto.
    + destruct (ntruthy _); eauto.
Qed.
End Width.
