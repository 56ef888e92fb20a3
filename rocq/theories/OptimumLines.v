(** * OptimumLines: widths of the lines of optimal paragraphs, and when they exist. *)
From Coq Require Import QArith Qcanon Qround Lqa.
From Verif Require Import Base Gfmt FontSpec FontProofs Num Fonts State TextSpec StateProofs
  Words WordsSpec WordProofs WordOps Parse Render RenderSpec RenderProofs WordWidth LineSpec Firstfit FirstfitProofs FirstfitWidth
  KnuthPlass KPSpec KPProofs Properties_KnuthPlass Optimum OptimumProofs OptimumWidth.
Open Scope nat_scope.

Section Each.
Context {NUM : Num} {ENV : Env NUM}.
Lemma rows_each (full : list (fragment * kbox)) width ragged t (Q : nat -> bool -> oline -> Prop) :
  (forall k a init last rest q adj ln fin, full = a ++ init ++ last :: rest ->
     line_ratio (map snd full) width ragged k (List.length a) (List.length a + S (List.length init)) q ->
     (fin = true -> rest = [] /\ adj = nmin q n0 /\ nltb (nZ (-1)) adj = true) ->
     (fin = false -> adj = q /\ nltb q (nZ (-1)) = false) ->
     made_line ragged (map fst init ++ [fst last]) adj ln ->
     recorded (map snd full) (List.length a) (List.length a + S (List.length init)) ln -> Q k fin ln) ->
  forall k i fs ls, rows (map snd full) width ragged t k i fs ls ->
  forall a b, full = a ++ b -> List.length a = i -> fs = map fst b ->
  forall m ln, nth_error ls m = Some ln -> Q (k + m) (S m =? List.length ls) ln.
Proof.
  intros HQ k i fs ls R. induction R as [k i sl l q adj NE LE LR EA LT ML RC|k i sl rest l ls q NE NR LR LT WI ML RC R IH];
    intros a b EF LA EB m ln N.
  - destruct m as [|m]; [|destruct m; discriminate]. cbn in N. inversion N; subst ln. rewrite Nat.add_0_r.
    destruct (@exists_last _ b) as (init & last & Eb). { intros ->. apply NE. rewrite EB. reflexivity. }
    assert (LL : List.length (map snd full) = List.length a + S (List.length init)).
    { rewrite EF, Eb, map_length, !app_length. cbn. lia. }
    eapply (HQ k a init last [] q adj l true).
    + rewrite EF, Eb. reflexivity.
    + rewrite <- LL, LA. exact LR.
    + intros _. auto.
    + discriminate.
    + rewrite EB, Eb, map_app in ML. exact ML.
    + rewrite <- LL, LA. exact RC.
  - assert (X : exists b1 b2, b = b1 ++ b2 /\ sl = map fst b1 /\ rest = map fst b2).
    { exists (firstn (List.length sl) b), (skipn (List.length sl) b). split; [symmetry; apply firstn_skipn|].
      rewrite <- firstn_map, <- skipn_map, <- EB. split; [rewrite firstn_app, Nat.sub_diag, firstn_all, firstn_O, app_nil_r; reflexivity|].
      rewrite skipn_app, Nat.sub_diag, skipn_all. reflexivity. }
    destruct X as (b1 & b2 & Eb & E1 & E2).
    destruct (@exists_last _ b1) as (init & last & Eb1). { intros ->. apply NE. rewrite E1. reflexivity. }
    assert (L1 : List.length sl = S (List.length init)). { rewrite E1, Eb1, map_length, app_length. cbn. lia. }
    destruct m as [|m].
    + cbn in N. inversion N; subst ln. rewrite Nat.add_0_r.
      assert (FIN : (1 =? List.length (l :: ls)) = false).
      { apply Nat.eqb_neq. cbn. intros C. destruct ls; [|discriminate]. inversion R. }
      rewrite FIN. eapply (HQ k a init last b2 q q l false).
      * rewrite EF, Eb, Eb1, <- app_assoc. reflexivity.
      * rewrite <- L1, LA. exact LR.
      * discriminate.
      * intros _. auto.
      * rewrite E1, Eb1, map_app in ML. exact ML.
      * rewrite <- L1, LA. exact RC.
    + cbn in N. replace (k + S m) with (S k + m) by lia. change (S (S m) =? List.length (l :: ls)) with (S m =? List.length ls).
      eapply IH with (a := a ++ b1); eauto.
      * rewrite EF, Eb, app_assoc. reflexivity.
      * rewrite app_length, LA, E1, map_length. reflexivity.
Qed.
(** where the lines stand *)
Lemma placed_ext {A} (c1 c2 : nat -> num * num) (gs : list (list A)) : (forall j, c1 j = c2 j) -> placed c1 gs = placed c2 gs.
Proof. revert c1 c2. induction gs as [|g gs IH]; intros c1 c2 H; cbn; auto. rewrite H. f_equal. apply IH. intros j. apply H. Qed.
Lemma placed_repeat {A} d : forall (cols : nat -> num * num) (gs : list (list A)), placed cols (repeat [] d ++ gs) = placed (fun j => cols (d + j)) gs.
Proof. induction d as [|d IH]; intros cols gs; cbn; auto. rewrite IH. apply placed_ext. intros; f_equal; lia. Qed.
Lemma nth_placed {A} (cols : nat -> num * num) (gs : list (list A)) m w x : nth_error (placed cols gs) m = Some (w, x) ->
  nth_error (map fst (placed cols gs)) m = Some w /\ nth_error (concat gs) m = Some x.
Proof.
  intros H. rewrite <- (placed_lines cols gs). rewrite !nth_error_map, H. auto.
Qed.
Lemma out_lines fuel ws cols (ae : bool) (lead : num) (avoid ragged : bool) tolerance P out :
  (forall i, (0 <= nfloordiv (snd (cols i)) lead)%Z) -> Forall flat ws -> ws <> [] ->
  opt_shape fuel ws cols ae lead avoid ragged tolerance P = Ok out ->
  exists full width t ls, words_boxes (negb ragged) ws n0 (first_stretch (negb ragged) ws) n0 = Ok full
    /\ rows (map snd full) width ragged t 0 0 (map fst full) ls
    /\ placed cols out = combine (map width (seq 0 (List.length ls))) ls
    /\ concat out = ls.
Proof.
  intros RM FL NE H. apply opt_shape_spec in H as (frags & boxes & E & [(-> & _)|(d & q & groups & D & -> & Q & L)]); auto.
  { exfalso. destruct (into_boxes_good _ _ _ _ FL E) as (_ & _ & _ & X & _). apply X; auto. }
  unfold into_boxes in E. apply rmap_inv in E as (full & E & EF). inversion EF; subst frags boxes; clear EF.
  destruct L as (ls & L1 & L2). apply lay_rows in L1 as (t & _ & R); [|rewrite !map_length; reflexivity].
  exists full, (line_length q), t, ls. split; auto. split; auto.
  destruct (per_column_spec ls q (proj1 Q)) as (gs & E3 & E4 & E5 & _). rewrite L2 in E3. inversion E3; subst gs.
  split.
  - rewrite placed_repeat. rewrite <- (placed_ext (q_cols q)) by (apply Q). rewrite <- E5, <- E4.
    transitivity (combine (map fst (placed (q_cols q) groups)) (map snd (placed (q_cols q) groups))); [|rewrite placed_lines; reflexivity].
    clear. induction (placed (q_cols q) groups) as [|[w x] l IH]; cbn; auto. f_equal. exact IH.
  - rewrite concat_app, E4. assert (Z : concat (repeat (@nil oline) d) = []) by (clear; induction d; cbn; auto). rewrite Z. reflexivity.
Qed.
Lemma nth_combine {A B} (f : nat -> A) (ls : list B) k m p : nth_error (combine (map f (seq k (List.length ls))) ls) m = Some p ->
  nth_error ls m = Some (snd p) /\ fst p = f (k + m).
Proof.
  revert k m. induction ls as [|x ls IH]; intros k m; cbn; [destruct m; discriminate|].
  destruct m as [|m]; cbn.
  - intros [= <-]. rewrite Nat.add_0_r. auto.
  - intros H. apply IH in H as (A1 & A2). split; auto. rewrite A2. f_equal. lia.
Qed.
End Each.

Section Lines.
Context {ENV : Env QcNum}.
Open Scope Qc_scope.
Definition gaps (ws : list (@wordlike QcNum)) : Qc := fold_right (fun w a => tail_gap w + a) 0 ws.
Lemma stretch_tail_none w (x : Qc) w' : wl_tail w = None -> wl_stretch_tail w x = Ok w' -> w' = w.
Proof.
  destruct w as [b|w|w c]; cbn; intros T H.
  - congruence.
  - unfold word_stretch_tail in H. rewrite T in H. cbn in H. congruence.
  - rewrite T in H. congruence.
Qed.
Lemma stretch_one_advance w (x : Qc) w' : wl_ok w -> wl_stretch_tail w x = Ok w' ->
  wl_advance w' = wl_advance w + (if Qc_eq_dec x 1 then 0 else x * tail_gap w).
Proof.
  intros O E. destruct (wl_stretch_tail_ok w x w' O E) as (O' & H & _).
  rewrite <- !wl_width_ok by assumption.
  destruct (wl_tail w) as [t|] eqn:T.
  - destruct (Qc_eq_dec x 1) as [->|NE].
    + assert (w' = w) as ->.
      { clear -E. revert w' E. induction w as [b|w|w IH c]; intros w' E; cbn in E; [congruence| |].
        - unfold word_stretch_tail in E. replace (@neqb QcNum 1 n1) with true in E by reflexivity. destruct (w_tail w); cbn in E; congruence.
        - destruct (wl_tail w); [|congruence]. apply rmap_ok in E as (y & E & ->). rewrite (IH _ E). reflexivity. }
      symmetry. apply Qcplus_0_r.
    + rewrite (H NE t eq_refl). unfold tail_gap. rewrite T. reflexivity.
  - rewrite (stretch_tail_none _ _ _ T E). unfold tail_gap. rewrite T. destruct (Qc_eq_dec x 1); [symmetry; apply Qcplus_0_r|].
    rewrite Qcmult_0_r. symmetry. apply Qcplus_0_r.
Qed.
Lemma stretch_advance ws (x : Qc) ws' : Forall wl_ok ws -> mapM (fun w => wl_stretch_tail w x) ws = Ok ws' ->
  all_advance ws' = all_advance ws + (if Qc_eq_dec x 1 then 0 else x * gaps ws).
Proof.
  intros O M. apply mapM_ok in M. induction M as [|w w' ws ws' E M IH].
  - cbn. destruct (Qc_eq_dec x 1); [symmetry; apply Qcplus_0_r|]. rewrite Qcmult_0_r. symmetry. apply Qcplus_0_r.
  - inversion O as [|? ? O1 O2]; subst. specialize (IH O2). cbn [all_advance fold_right gaps].
    fold (all_advance ws') (all_advance ws) (gaps ws). rewrite IH, (stretch_one_advance _ _ _ O1 E).
    destruct (Qc_eq_dec x 1); ring.
Qed.
Lemma sums_frag_ok just wd st sh l wd' st' sh' : sums just wd st sh l wd' st' sh' -> Forall frag_ok (map fst l).
Proof. induction 1; cbn; constructor; auto. Qed.
(** ragged lines fit *)
Lemma ragged_fits (f n u W q : Qc) : ragged_ratio (NUM := QcNum) f (f + n) u W q -> Qcltb q (Q2Qc (-1)) = false -> n <= W.
Proof.
  intros R L. inversion R as [H1 H2 Eq|H1 Eq]; subst.
  - clear -H1. change (Qcleb 0 (W - (f + n) + f) = true) in H1. apply Qcleb_le in H1. revert H1. generalize f n W. clear. intros. qc.
  - exfalso. vm_compute in L. discriminate.
Qed.
Lemma nmin_lt (q : Qc) : @nltb QcNum (nZ (-1)) (@nmin QcNum q n0) = true -> Qcltb q (Q2Qc (-1)) = false.
Proof.
  unfold nmin. destruct (@nltb QcNum n0 q) eqn:E.
  - intros _. clear -E. change (Qcltb 0 q = true) in E. apply Qcltb_lt in E. destruct (Qcltb q (Q2Qc (-1))) eqn:X; auto. exfalso. apply Qcltb_lt in X. revert E X. generalize q; clear; intros. qc.
  - intros H. change (Qcltb (Q2Qc (-1)) q = true) in H. apply Qcltb_lt in H. destruct (Qcltb q (Q2Qc (-1))) eqn:X; auto. exfalso. apply Qcltb_lt in X. revert H X. generalize q; clear; intros. qc.
Qed.
Lemma part_of {A B} (P : A -> Prop) (full a init rest : list (A * B)) last : full = a ++ init ++ last :: rest ->
  Forall P (map fst full) -> Forall P (map fst init ++ [fst last]).
Proof.
  intros -> H. rewrite !map_app in H. apply Forall_app in H as (_ & H). cbn in H. apply Forall_app in H as (X & Y).
  apply Forall_app. split; auto. inversion Y; constructor; auto.
Qed.
Lemma ragged_lines (full : list (fragment * kbox)) width t st0 wd' st' sh' ls :
  sums false 0 st0 0 full wd' st' sh' -> Forall good_frag (map fst full) ->
  rows (map snd full) width true t O O (map fst full) ls ->
  forall m ln, nth_error ls m = Some ln -> all_advance (ol_words ln) <= width m.
Proof.
  intros SU GF R m ln N.
  refine (rows_each full width true t (fun k _ ln => all_advance (ol_words ln) <= width k) _ O O _ ls R [] full eq_refl eq_refl eq_refl m ln N).
  clear m ln N. intros k a init last rest q adj ln fin EF LR F1 F2 (ws & LW & EW) _.
  assert (FO := part_of _ _ _ _ _ _ EF (sums_frag_ok _ _ _ _ _ _ _ _ SU)).
  assert (GF' := part_of _ _ _ _ _ _ EF GF).
  destruct (line_words_advance _ _ _ FO GF' LW) as (A & _). rewrite EW, A.
  destruct (line_ratio_sums false true width full a init rest last st0 wd' st' sh' k q SU ltac:(discriminate) EF LR) as (f & RR).
  eapply ragged_fits; [exact RR|]. destruct fin; [apply nmin_lt; destruct (F1 eq_refl) as (_ & <- & X); exact X|apply F2; reflexivity].
Qed.
(** justified lines *)
Lemma stretch_gap w (x : Qc) w' : wl_stretch_tail w x = Ok w' -> tail_gap w' = tail_gap w.
Proof.
  revert w'. induction w as [b|w|w IH c]; intros w' E; cbn in E.
  - inversion E; reflexivity.
  - apply rmap_ok in E as (y & E & ->). unfold word_stretch_tail in E. destruct (w_tail w) as [t|] eqn:T; [|inversion E; subst; reflexivity].
    destruct (neqb (x : @num QcNum) n1); [inversion E; subst; reflexivity|]. apply rmap_ok in E as (t' & E & ->).
    unfold tspace_stretch in E. apply bind_ok in E as (z & _ & E). inversion E; subst. unfold tail_gap. cbn. rewrite T. reflexivity.
  - destruct (wl_tail w) eqn:T.
    + apply rmap_ok in E as (y & E & ->). apply IH in E. exact E.
    + inversion E; subst. reflexivity.
Qed.
Lemma stretch_gaps ws (x : Qc) ws' : mapM (fun w => wl_stretch_tail w x) ws = Ok ws' -> gaps ws' = gaps ws.
Proof.
  intros M. apply mapM_ok in M. induction M as [|w w' ws ws' E M IH]; auto.
  cbn [gaps fold_right]. fold (gaps ws') (gaps ws). rewrite IH, (stretch_gap _ _ _ E). reflexivity.
Qed.
Lemma just_ratio_cases (f n g W q : Qc) : 0 < g -> justified_ratio (NUM := QcNum) f (f + n) (g * half) (g * third) W q ->
  (n < W /\ 0 < q /\ q * half * g = W - n) \/ (W <= n /\ q <= 0 /\ q * third * g = W - n).
Proof.
  intros G R.
  assert (EN : forall f n : Qc, f + n - f = n) by (intros; ring).
  assert (GN : g <> 0). { intros ->. discriminate G. }
  assert (HN : g * half <> 0). { intros C. apply Qcmult_integral in C as [C|C]; [auto|discriminate C]. }
  assert (TN : g * third <> 0). { intros C. apply Qcmult_integral in C as [C|C]; [auto|discriminate C]. }
  assert (HP : 0 < g * half) by (revert G; clear; generalize g; intros; unfold half; qc).
  assert (TP : 0 < g * third) by (revert G; clear; generalize g; intros; unfold third; qc).
  assert (DV : forall x s : Qc, s <> 0 -> x / s * s = x). { intros x s Hs. rewrite Qcmult_comm. apply Qcmult_div_r. exact Hs. }
  inversion R as [H1 H2 EQ|H1 H2 EQ|H1 H2 EQ|H1 H2 H3 EQ]; cbn [nsub ndiv QcNum] in *; rewrite ?EN in *.
  - left. apply Qcltb_lt in H1. split; auto. split.
    + apply Qcnot_le_lt. intros C.
      assert (X : (W - n) / (g * half) * (g * half) <= 0 * (g * half)) by (apply Qcmult_le_compat_r; [exact C|apply Qclt_le_weak, HP]).
      rewrite DV in X by exact HN. rewrite Qcmult_0_l in X. revert H1 X. clear. generalize W n. intros. qc.
    + rewrite <- (DV (W - n) (g * half) HN) at 2. ring.
  - right. assert (WN : W <= n). { apply Qcnot_lt_le. intros C. apply Qcltb_lt in C. change (Qcltb n W = false) in H1. congruence. }
    split; auto. split.
    + apply Qcnot_lt_le. intros C.
      assert (X : 0 * (g * third) < (W - n) / (g * third) * (g * third)) by (apply Qcmult_lt_compat_r; [exact TP|exact C]).
      rewrite DV in X by exact TN. rewrite Qcmult_0_l in X. revert WN X. clear. generalize W n. intros. qc.
    + rewrite <- (DV (W - n) (g * third) TN) at 2. ring.
  - exfalso. destruct (@nltb QcNum n W); apply Qceqb_eq in H2; auto.
  - exfalso. destruct (@nltb QcNum n W); apply Qceqb_eq in H2; auto.
Qed.
Lemma just_lines (full : list (fragment * kbox)) width t wd' st' sh' ls :
  sums true 0 0 0 full wd' st' sh' -> Forall good_frag (map fst full) ->
  rows (map snd full) width false t O O (map fst full) ls ->
  forall m ln, nth_error ls m = Some ln -> 0 < gaps (ol_words ln) ->
  if S m =? List.length ls then all_advance (ol_words ln) <= width m
  else all_advance (ol_words ln) = width m \/ all_advance (ol_words ln) + gaps (ol_words ln) = width m.
Proof.
  intros SU GF R m ln N.
  refine (rows_each full width false t (fun k fin ln => 0 < gaps (ol_words ln) ->
    if fin : bool then all_advance (ol_words ln) <= width k
    else all_advance (ol_words ln) = width k \/ all_advance (ol_words ln) + gaps (ol_words ln) = width k)
    _ O O _ ls R [] full eq_refl eq_refl eq_refl m ln N).
  clear m ln N. intros k a init last rest q adj ln fin EF LR F1 F2 (ws & LW & EW) _.
  assert (FO := part_of _ _ _ _ _ _ EF (sums_frag_ok _ _ _ _ _ _ _ _ SU)).
  assert (GF' := part_of _ _ _ _ _ _ EF GF).
  destruct (line_words_advance _ _ _ FO GF' LW) as (A & WO & GA). fold (gaps ws) in GA.
  destruct (line_ratio_sums true false width full a init rest last 0 wd' st' sh' k q SU ltac:(reflexivity) EF LR) as (f & s1 & s2 & RR & SS).
  destruct (SS eq_refl) as (-> & ->). rewrite <- GA in RR. clear SS.
  unfold oline_stretch in EW. apply bind_ok in EW as (ws' & M & EW). inversion EW as [EW']. cbn [ol_words] in M |- *.
  set (x := @nmul QcNum adj (if @nltb QcNum n0 adj then STRETCH_RATIO else SHRINK_RATIO)) in *.
  rewrite (stretch_gaps _ _ _ M), (stretch_advance _ _ _ WO M), A. intros G.
  set (n := natural (map fst init) (fst last)) in *. set (g := gaps ws) in *.
  destruct (just_ratio_cases f n g (width k) q G RR) as [(C1 & C2 & C3)|(C1 & C2 & C3)].
  - destruct fin.
    + destruct (F1 eq_refl) as (_ & EA & _).
      assert (Z : adj = 0). { rewrite EA. unfold nmin. replace (@nltb QcNum n0 q) with true; auto. symmetry. apply Qcltb_lt. exact C2. }
      assert (X : x = 0). { unfold x. rewrite Z. vm_compute. apply Qc_is_canon. reflexivity. }
      rewrite X. destruct (Qc_eq_dec 0 1); [discriminate|]. rewrite Qcmult_0_l, Qcplus_0_r. apply Qclt_le_weak, C1.
    + destruct (F2 eq_refl) as (-> & _).
      assert (X : x = q * half). { unfold x. replace (@nltb QcNum n0 q) with true; [reflexivity|]. symmetry. apply Qcltb_lt. exact C2. }
      rewrite X in *. destruct (Qc_eq_dec (q * half) 1) as [E1|_].
      * right. rewrite E1 in C3. rewrite Qcmult_1_l in C3. rewrite C3. generalize n (width k : Qc). clear. intros. ring.
      * left. rewrite C3. generalize n (width k : Qc). clear. intros. ring.
  - assert (EA : adj = q).
    { destruct fin; [|apply F2; reflexivity]. destruct (F1 eq_refl) as (_ & -> & _). unfold nmin.
      replace (@nltb QcNum n0 q) with false; auto. symmetry. destruct (@nltb QcNum n0 q) eqn:E; auto. exfalso. apply Qcltb_lt in E.
      change (0 < q) in E. apply Qcle_not_lt in C2. auto. }
    assert (X : x = q * third).
    { unfold x. rewrite EA. replace (@nltb QcNum n0 q) with false; auto. symmetry. destruct (@nltb QcNum n0 q) eqn:E; auto. exfalso. apply Qcltb_lt in E.
      change (0 < q) in E. apply Qcle_not_lt in C2. auto. }
    assert (X1 : q * third <> 1).
    { intros C. assert (q * third <= 0). { revert C2. clear. generalize q. intros. unfold third. qc. } rewrite C in H. apply H. reflexivity. }
    rewrite X. destruct (Qc_eq_dec (q * third) 1); [contradiction|]. rewrite C3.
    assert (E : n + (width k - n) = width k). { generalize n (width k : Qc). clear. intros. ring. }
    rewrite E. destruct fin; [apply Qcle_refl|left; reflexivity].
Qed.
(** the recorded width: with the final space, without the hyphen *)
Lemma recorded_width just (full a init rest : list (fragment * kbox)) last st0 wd' st' sh' ln :
  sums just 0 st0 0 full wd' st' sh' -> full = a ++ init ++ last :: rest ->
  recorded (map snd full) (List.length a) (List.length a + S (List.length init)) ln ->
  ol_width ln = total tw (map fst init) + tw (fst last).
Proof.
  intros SU El (b & f & g & h & N & LS & ->).
  assert (N' : nth_error (map snd full) (List.length a + List.length init) = Some (snd last)).
  { rewrite El, !map_app. rewrite nth_error_app2; rewrite map_length; [|lia].
    replace (_ - _)%nat with (List.length init) by lia. rewrite nth_error_app2; rewrite map_length; [|lia].
    rewrite Nat.sub_diag. reflexivity. }
  replace (List.length a + S (List.length init) - 1)%nat with (List.length a + List.length init)%nat in N by lia.
  rewrite N' in N. inversion N; subst b. clear N.
  destruct last as (fl & bl). cbn [fst snd] in *.
  pose proof SU as S1. rewrite El, app_assoc in S1. apply sums_nth in S1 as (H2 & _). rewrite map_app, !total_app in H2.
  assert (F : f = total tw (map fst a)).
  { destruct (List.length a) as [|n] eqn:LA.
    - destruct a; [|discriminate]. cbn in LS. destruct LS as (-> & _). reflexivity.
    - destruct LS as (x & y & X & Y & -> & _).
      destruct (@exists_last _ a) as (a' & (fx & bx) & Ea); [destruct a; discriminate|].
      assert (Ln : List.length a' = n). { rewrite Ea, app_length in LA. cbn in LA. lia. }
      assert (X' : x = bx).
      { rewrite El, Ea, !map_app, <- app_assoc in X. rewrite nth_error_app2 in X; rewrite map_length in *; [|lia].
        rewrite Ln, Nat.sub_diag in X. cbn in X. congruence. }
      subst x. pose proof SU as S2. rewrite El, Ea, <- app_assoc in S2. apply sums_nth in S2 as (E & _). rewrite E, Ea, map_app, total_app. cbn. ring. }
  rewrite F, H2. assert (AX : forall x y z : Qc, 0 + (x + y) + z - x = y + z) by (intros; ring). apply AX.
Qed.
End Lines.
