(** * OptimumWidth: optimal typesetting in exact arithmetic. *)
From Coq Require Import QArith Qcanon Qround Lqa.
From Verif Require Import Base Gfmt FontSpec FontProofs Num Fonts State TextSpec StateProofs
  Words WordsSpec WordProofs WordOps Parse Render RenderSpec RenderProofs WordWidth LineSpec Firstfit FirstfitProofs FirstfitWidth
  KnuthPlass KPSpec KPProofs Properties_KnuthPlass Optimum OptimumProofs.
Open Scope nat_scope.

(** ** When breaking succeeds (any ordered arithmetic) *)
Section Progress.
Context {NUM : Num}.
Variables (bs : list kbox) (width : nat -> num) (t : tol) (P : params) (ragged : bool).
Hypothesis ORD : ordered NUM.
Hypothesis NB : forall b, In b bs -> kb_no_break b = false.
Hypothesis RT : forall n b, In b bs -> exists r, node_ratio width ragged n b = Ok r.
Hypothesis ONE : forall k i r, S i < List.length bs -> line_ratio bs width ragged k i (S i) r ->
  nltb r (nZ (-1)) = false /\ within r t = true.
Hypothesis LAST : forall k i r, S i = List.length bs -> line_ratio bs width ragged k i (S i) r ->
  nltb (nZ (-1)) (nmin r n0) = true.
Lemma visit_total nodes p b bn : In b bs -> forall g, exists g', visit width t P ragged nodes p b bn g = Ok g'.
Proof.
  intros I. induction nodes as [|n ns IH]; intros g; cbn [visit]; [eauto|].
  destruct (RT n b I) as (r & ->). cbn. apply IH.
Qed.
Lemma scan_progress rest : forall b p g, rest_of bs p b rest -> all_good bs width t P ragged p g ->
  (exists n, In n g /\ n_pos n = p - 1) ->
  exists g' last pos, scan width t P ragged b rest p g = Ok (g', last, pos) /\ exists n, In n g' /\ n_pos n = pos - 1.
Proof.
  induction rest as [|bn rest IH]; intros b p g R A N; cbn [scan]; [eauto 10|].
  destruct (rest_of_next bs width _ _ _ _ R) as (Hbn & R').
  assert (Ib : In b bs) by (eapply nth_error_In; apply R). rewrite (NB _ Ib).
  destruct N as (n & In_n & Pn). destruct g as [|n' g'] eqn:EG; [destruct In_n|]. rewrite <- EG in *. clear EG.
  destruct (visit_total g p b bn Ib g) as (g1 & V). rewrite V. cbn.
  assert (FP : Forall (fun n => n_pos n < p) g). { eapply Forall_impl; [|exact A]. intros ? (_ & ?); auto. }
  destruct (RT n b Ib) as (r & Hr).
  assert (Gn : good bs width t P ragged n). { unfold all_good in A. rewrite Forall_forall in A. apply A; auto. }
  assert (LR : line_ratio bs width ragged (n_line n) (p - 1) (S (p - 1)) r).
  { rewrite <- Pn. eapply node_ratio_spec; eauto; [lia|]. rewrite Pn. cbn. rewrite Nat.sub_0_r. apply R. }
  assert (PL : S (p - 1) < List.length bs).
  { assert (p < List.length bs) by (apply nth_error_Some; congruence). destruct R; lia. }
  destruct (ONE _ _ _ PL LR) as (L1 & L2).
  destruct (visit_covers width t P ragged ORD p b bn g FP g g1 V) as (_ & C).
  destruct (C n r In_n Hr L1 L2) as (m & Im & _ & Pm & _). cbn in Pm.
  apply IH; auto.
  - eapply visit_good; [apply R|exact Hbn|apply NB, Ib|exact A|apply all_good_S, A|exact V].
  - exists m. split; auto. lia.
Qed.
Lemma end_total nodes b pos : In b bs -> exists opts, end_options width P ragged nodes b pos = Ok opts
  /\ forall n r, In n nodes -> node_ratio width ragged n b = Ok r -> nltb (nZ (-1)) (nmin r n0) = true -> opts <> [].
Proof.
  intros I. induction nodes as [|n ns (opts & E & H)]; cbn [end_options]; [exists []; split; auto|].
  destruct (RT n b I) as (r & Hr). rewrite Hr, E. cbn. eexists. split; [reflexivity|].
  intros m q [<-|Hm] Hq Lq.
  - rewrite Hr in Hq. inversion Hq; subst q. rewrite Lq. discriminate.
  - destruct (nltb (nZ (-1)) (nmin r n0)); [discriminate|]. eapply H; eauto.
Qed.
Lemma optimum_fit_total : bs <> [] -> exists brs, optimum_fit width t P ragged bs = Ok brs.
Proof.
  intros NE. unfold optimum_fit. destruct bs as [|b0 rest] eqn:EB; [congruence|]. rewrite <- EB in *.
  assert (R : rest_of bs 1 b0 rest). { rewrite EB. repeat split; lia. }
  destruct (scan_progress rest b0 1 [Root] R) as (g & last & pos & E & n & In_n & Pn).
  - constructor; [|constructor]. split; [apply good_root|cbn; lia].
  - exists Root. split; [left; auto|reflexivity].
  - rewrite E. cbn.
    destruct (scan_good bs width t P ragged rest b0 1 [Root] g last pos R) as (A & B); auto.
    { constructor; [|constructor]. split; [apply good_root|cbn; lia]. }
    assert (EP : pos = List.length bs) by (eapply (rest_of_len bs width); exact B).
    assert (IL : In last bs) by (eapply nth_error_In; apply B).
    destruct (end_total g last pos IL) as (opts & EO & H). rewrite EO. cbn.
    destruct (RT n last IL) as (r & Hr).
    assert (Gn : good bs width t P ragged n). { unfold all_good in A. rewrite Forall_forall in A. apply A; auto. }
    assert (LP : 0 < List.length bs) by (rewrite EB; cbn; lia).
    assert (LR : line_ratio bs width ragged (n_line n) (pos - 1) (S (pos - 1)) r).
    { rewrite <- Pn. eapply node_ratio_spec; eauto; [lia|]. rewrite Pn. cbn. rewrite Nat.sub_0_r. apply B. }
    destruct opts as [|e l]; [|eauto]. exfalso. eapply H; eauto. eapply LAST; [|exact LR]. lia.
Qed.
End Progress.

Section Width.
Context {ENV : Env QcNum}.
Open Scope Qc_scope.
(** the width of a fragment inside and at the end of a line, and its stretchable space *)
Definition tw (f : fragment) : Qc := wl_width (fr_txt f).
Definition bw (f : fragment) : Qc := match fr_break f with Some w => wl_width w | None => 0 end.
Definition tail_gap (w : wordlike) : Qc := match wl_tail w with Some t => ts_width t | None => 0 end.
Definition gap (f : fragment) : Qc := tail_gap (fr_txt f).
Definition half : Qc := Q2Qc (1 # 2).
Definition third : Qc := Q2Qc (1 # 3).
Definition frag_ok (f : fragment) : Prop := wl_ok (fr_txt f) /\ (forall w, fr_break f = Some w -> wl_ok w).
Definition stretch_of (just : bool) (f : fragment) : Qc := if just then gap f * half else 0.
Definition shrink_of (just : bool) (f : fragment) : Qc := if just then gap f * third else 0.
Inductive sums (just : bool) : Qc -> Qc -> Qc -> list (@fragment QcNum * @kbox QcNum) -> Qc -> Qc -> Qc -> Prop :=
| sums_nil wd st sh : sums just wd st sh [] wd st sh
| sums_cons wd st sh f b r wd' st' sh' :
    kb_incl_space b = wd + tw f -> kb_incl_hyphen b = wd + bw f ->
    kb_stretch b = st -> kb_shrink b = sh -> kb_no_break b = false -> frag_ok f ->
    sums just (wd + tw f) (st + stretch_of just f) (sh + shrink_of just f) r wd' st' sh' ->
    sums just wd st sh ((f, b) :: r) wd' st' sh'.
Lemma sums_app just l1 : forall l2 wd st sh wd1 st1 sh1 wd2 st2 sh2,
  sums just wd st sh l1 wd1 st1 sh1 -> sums just wd1 st1 sh1 l2 wd2 st2 sh2 -> sums just wd st sh (l1 ++ l2) wd2 st2 sh2.
Proof.
  intros l2 wd st sh wd1 st1 sh1 wd2 st2 sh2 H. induction H; cbn; auto. intros HH. constructor; auto.
Qed.
Lemma sums_split just l1 : forall l2 wd st sh wd2 st2 sh2, sums just wd st sh (l1 ++ l2) wd2 st2 sh2 ->
  exists wd1 st1 sh1, sums just wd st sh l1 wd1 st1 sh1 /\ sums just wd1 st1 sh1 l2 wd2 st2 sh2.
Proof.
  induction l1 as [|x l1 IH]; intros l2 wd st sh wd2 st2 sh2 H; cbn in H.
  - exists wd, st, sh. split; [constructor|auto].
  - inversion H; subst. edestruct IH as (wd1 & st1 & sh1 & A & B); [eassumption|]. exists wd1, st1, sh1. split; auto. constructor; auto.
Qed.
Definition total (g : fragment -> Qc) (l : list fragment) : Qc := fold_right (fun f a => g f + a) 0 l.
Lemma sums_total just wd st sh l wd' st' sh' : sums just wd st sh l wd' st' sh' ->
  wd' = wd + total tw (map fst l) /\ st' = st + total (stretch_of just) (map fst l)
  /\ sh' = sh + total (shrink_of just) (map fst l).
Proof.
  induction 1 as [wd st sh|wd st sh f b r wd' st' sh' A B C D E F S (I1 & I2 & I3)]; cbn.
  - repeat split; ring.
  - subst. unfold total in *. repeat split; rewrite Qcplus_assoc; reflexivity.
Qed.
Lemma total_nil g : total g [] = 0. Proof. reflexivity. Qed.
Lemma total_cons g f l : total g (f :: l) = g f + total g l. Proof. reflexivity. Qed.
Lemma total_scale g (c : Qc) l : total (fun f => g f * c) l = total g l * c.
Proof. induction l as [|f l IH]; [rewrite !total_nil; ring|]. rewrite !total_cons, IH. ring. Qed.
Lemma total_app g a b : total g (a ++ b) = total g a + total g b.
Proof. induction a as [|f l IH]; cbn [app]; [rewrite total_nil; ring|]. rewrite !total_cons, IH. ring. Qed.

Lemma chunk_sums just bs : Forall box_ok bs -> forall (wd st sh : Qc),
  let (l, w) := chunk_boxes bs wd st sh in sums just wd st sh l w st sh.
Proof.
  induction 1 as [|b bs Hb _ IH]; intros wd st sh; cbn [chunk_boxes]; [constructor|].
  specialize (IH (nadd wd (box_width b)) st sh). destruct (chunk_boxes bs _ st sh) as (l & w).
  assert (S0 : forall x : Qc, x + (if just then 0 * half else 0) = x) by (intros; destruct just; ring).
  assert (S1 : forall x : Qc, x + (if just then 0 * third else 0) = x) by (intros; destruct just; ring).
  constructor; cbn; auto.
  - split; cbn; auto. intros w' [= <-]. cbn. apply box_with_hyphen_ok, Hb.
  - unfold stretch_of, shrink_of, gap, tail_gap. cbn. rewrite S0, S1. exact IH.
Qed.

Lemma nsum1 (x : Qc) : @nsum QcNum [x] = x.
Proof. change (0 + x = x). ring. Qed.
Lemma sums_one just f b (wd st sh wd' st' sh' : Qc) :
  kb_incl_space b = wd + tw f -> kb_incl_hyphen b = wd + bw f ->
  kb_stretch b = st -> kb_shrink b = sh -> kb_no_break b = false -> frag_ok f ->
  wd' = wd + tw f -> st' = st + stretch_of just f -> sh' = sh + shrink_of just f ->
  sums just wd st sh [(f, b)] wd' st' sh'.
Proof. intros. subst wd' st' sh'. constructor; auto. constructor. Qed.
Lemma word_boxes_sums just w (wd st sh : Qc) l wd' st' sh' : wl_ok w -> flat w ->
  word_boxes just w wd st sh = Ok (l, wd', st', sh') -> sums just wd st sh l wd' st' sh'.
Proof.
  intros O F H. unfold word_boxes in H.
  assert (U : exists x c, unwrap w = (WWord x, c) /\ word_ok x).
  { destruct w as [b|x|[b|x|w c'] c]; cbn in F; try contradiction; [exists x, NoOp; split; [reflexivity|exact O]|exists x, c; split; [reflexivity|exact O]]. }
  destruct U as (x & c & U & (BO & TO)). rewrite U in H. cbn [wl_boxes wl_tail wl_state] in H. clear U O F.
  pose proof (chunk_sums just (removelast (w_boxes x))) as CH.
  assert (BO' : Forall box_ok (removelast (w_boxes x))).
  { destruct (rev (w_boxes x)) as [|b r] eqn:R.
    - assert (E : w_boxes x = []) by (rewrite <- (rev_involutive (w_boxes x)), R; reflexivity). rewrite E. constructor.
    - rewrite (removelast_last_rev _ _ _ R) in BO. apply Forall_app in BO. apply BO. }
  specialize (CH BO' wd st sh). destruct (chunk_boxes (removelast (w_boxes x)) wd st sh) as (ch & w1).
  assert (LO : forall b r, rev (w_boxes x) = b :: r -> box_ok b).
  { intros b r R. rewrite (removelast_last_rev _ _ _ R) in BO. apply Forall_app in BO as (_ & BO). inversion BO; auto. }
  destruct (w_tail x) as [t|] eqn:T.
  - inversion H; subst l wd' st' sh'; clear H. eapply sums_app; [exact CH|].
    destruct (rev (w_boxes x)) as [|b r] eqn:R.
    + assert (TW : tw (mkFrag (WWord (mkWord [] (Some t) (w_state x))) None c) = tspace_width t).
      { unfold tw. cbn [fr_txt wl_width]. unfold word_width, word_pruned_width, word_prunable. cbn [w_boxes w_tail map]. change (0 + tspace_width t = tspace_width t). ring. }
      apply sums_one; rewrite ?TW; cbn [kb_incl_space kb_incl_hyphen kb_stretch kb_shrink kb_no_break]; auto.
      * change (w1 + 0 + tspace_width t = w1 + tspace_width t). ring.
      * split; [split; [constructor|exact TO]|]. discriminate.
      * change (w1 + 0 + tspace_width t = w1 + tspace_width t). ring.
      * unfold stretch_of, gap, tail_gap. destruct just; [reflexivity|symmetry; apply Qcplus_0_r].
      * unfold shrink_of, gap, tail_gap. destruct just; [reflexivity|symmetry; apply Qcplus_0_r].
    + specialize (LO b r eq_refl).
      assert (TW : tw (mkFrag (WWord (mkWord [b] (Some t) (w_state x))) (Some (WBox b)) c) = box_width b + tspace_width t).
      { unfold tw. cbn [fr_txt wl_width]. unfold word_width, word_pruned_width, word_prunable. cbn [map w_boxes w_tail].
        rewrite nsum1. reflexivity. }
      apply sums_one; rewrite ?TW; cbn [kb_incl_space kb_incl_hyphen kb_stretch kb_shrink kb_no_break]; auto.
      * change (w1 + box_width b + tspace_width t = w1 + (box_width b + tspace_width t)). ring.
      * split; [split; [constructor; [exact LO|constructor]|exact TO]|]. cbn. intros w' [= <-]. exact LO.
      * change (w1 + box_width b + tspace_width t = w1 + (box_width b + tspace_width t)). ring.
      * unfold stretch_of, gap, tail_gap. destruct just; [reflexivity|symmetry; apply Qcplus_0_r].
      * unfold shrink_of, gap, tail_gap. destruct just; [reflexivity|symmetry; apply Qcplus_0_r].
  - destruct (rev (w_boxes x)) as [|b r] eqn:R; [discriminate|]. specialize (LO b r eq_refl).
    inversion H; subst l wd' st' sh'; clear H. eapply sums_app; [exact CH|].
    apply sums_one; cbn [kb_incl_space kb_incl_hyphen kb_stretch kb_shrink kb_no_break]; auto.
    + split; [exact LO|]. cbn. intros w' [= <-]. exact LO.
    + unfold stretch_of, gap, tail_gap. cbn. destruct just; [change (st = st + 0 * half); ring|symmetry; apply Qcplus_0_r].
    + unfold shrink_of, gap, tail_gap. cbn. destruct just; [change (sh = sh + 0 * third); ring|symmetry; apply Qcplus_0_r].
Qed.
Lemma words_boxes_sums just ws : Forall wl_ok ws -> Forall flat ws -> forall (wd st sh : Qc) l,
  words_boxes just ws wd st sh = Ok l -> exists wd' st' sh', sums just wd st sh l wd' st' sh'.
Proof.
  induction 1 as [|w ws Ow Ows IH]; intros F wd st sh l H; cbn [words_boxes] in H.
  - inversion H; subst. exists wd, st, sh. constructor.
  - inversion F; subst. apply bind_ok in H as ([[[l1 wd1] st1] sh1] & E1 & H). apply bind_ok in H as (l2 & E2 & H). inversion H; subst l.
    apply word_boxes_sums in E1; auto. destruct (IH ltac:(assumption) _ _ _ _ E2) as (a & b & c & S). exists a, b, c. eapply sums_app; eauto.
Qed.

(** ** One line *)
Lemma sums_nth just l1 f b l2 wd st sh wd' st' sh' : sums just wd st sh (l1 ++ (f, b) :: l2) wd' st' sh' ->
  kb_incl_space b = wd + total tw (map fst l1) + tw f /\ kb_incl_hyphen b = wd + total tw (map fst l1) + bw f
  /\ kb_stretch b = st + total (stretch_of just) (map fst l1) /\ kb_shrink b = sh + total (shrink_of just) (map fst l1).
Proof.
  intros H. apply sums_split in H as (wd1 & st1 & sh1 & A & B). apply sums_total in A as (-> & -> & ->).
  inversion B; subst. auto.
Qed.
(** the start and the extent of a line made of [init ++ [last]] after [a] *)
Definition natural (init : list fragment) (last : fragment) : Qc := total tw init + bw last.
Lemma line_ratio_sums just ragged width (l a init rest : list (fragment * kbox)) last st0 wd' st' sh' k q :
  sums just 0 st0 0 l wd' st' sh' -> (just = true -> st0 = 0) ->
  l = a ++ init ++ last :: rest ->
  line_ratio (map snd l) width ragged k (List.length a) (List.length a + S (List.length init)) q ->
  exists f, if ragged then ragged_ratio f (f + natural (map fst init) (fst last)) (kb_stretch (snd last)) (width k) q
            else exists s1 s2, justified_ratio f (f + natural (map fst init) (fst last)) s1 s2 (width k) q
                 /\ (just = true -> s1 = total gap (map fst init) * half /\ s2 = total gap (map fst init) * third).
Proof.
  intros SU J El (b & f & g & h & _ & N & LS & R).
  assert (N' : nth_error (map snd l) (List.length a + List.length init) = Some (snd last)).
  { rewrite El, !map_app. rewrite nth_error_app2; rewrite map_length; [|lia].
    replace (_ - _)%nat with (List.length init) by lia. rewrite nth_error_app2; rewrite map_length; [|lia].
    rewrite Nat.sub_diag. reflexivity. }
  replace (List.length a + S (List.length init) - 1)%nat with (List.length a + List.length init)%nat in N by lia.
  rewrite N' in N. inversion N; subst b. clear N.
  destruct last as (fl & bl). cbn [fst snd] in *.
  pose proof SU as S1. rewrite El, app_assoc in S1. apply sums_nth in S1 as (_ & H2 & H3 & H4).
  rewrite map_app, !total_app in H2, H3, H4.
  assert (F : f = total tw (map fst a) /\ (just = true -> g = total (stretch_of just) (map fst a) /\ h = total (shrink_of just) (map fst a))).
  { destruct (List.length a) as [|n] eqn:LA.
    - destruct a; [|discriminate]. cbn in LS. destruct LS as (-> & -> & ->). cbn. auto.
    - destruct LS as (x & y & X & Y & -> & -> & ->).
      destruct (@exists_last _ a) as (a' & (fx & bx) & Ea); [destruct a; discriminate|].
      assert (Ln : List.length a' = n). { rewrite Ea, app_length in LA. cbn in LA. lia. }
      assert (X' : x = bx).
      { rewrite El, Ea, !map_app, <- app_assoc in X. rewrite nth_error_app2 in X; rewrite map_length in *; [|lia].
        rewrite Ln, Nat.sub_diag in X. cbn in X. congruence. }
      subst x. split.
      + pose proof SU as S2. rewrite El, Ea, <- app_assoc in S2. apply sums_nth in S2 as (E & _). rewrite E, Ea, map_app, total_app. cbn. ring.
      + intros ->. assert (NX : exists fy tl, init ++ (fl, bl) :: rest = (fy, y) :: tl).
        { rewrite El, map_app in Y. rewrite nth_error_app2 in Y; rewrite map_length in *; [|lia]. rewrite LA, Nat.sub_diag in Y.
          destruct init as [|(fy & by') tl]; cbn in Y; inversion Y; subst; cbn [app]; eexists _, _; reflexivity. }
        destruct NX as (fy & tl & NX). pose proof SU as S2. rewrite El, NX in S2. apply sums_nth in S2 as (_ & _ & E1 & E2).
        rewrite E1, E2. rewrite (J eq_refl). split; apply Qcplus_0_l. }
  destruct F as (-> & F). exists (total tw (map fst a)).
  assert (EH : kb_incl_hyphen bl = total tw (map fst a) + natural (map fst init) fl).
  { rewrite H2. unfold natural. rewrite Qcplus_0_l, <- Qcplus_assoc. reflexivity. }
  destruct ragged.
  - rewrite <- EH. exact R.
  - rewrite <- EH. eexists _, _. split; [exact R|]. intros ->. destruct (F eq_refl) as (-> & ->). rewrite (J eq_refl) in H3.
    unfold stretch_of, shrink_of in *. rewrite !total_scale in *.
    assert (AX : forall A B c : Qc, 0 + (A * c + B * c) - A * c = B * c) by (intros; ring).
    rewrite H3, H4. split; apply AX.
Qed.
(** what is displayed *)
Lemma with_cmd_advance w c : wl_advance (with_cmd w c) = wl_advance w.
Proof. destruct c; reflexivity. Qed.
Lemma frags_advance fs : Forall frag_ok fs -> all_advance (map frag_word fs) = total tw fs.
Proof.
  induction 1 as [|f fs (O & _) _ IH]; cbn; auto. unfold all_advance, total in *. cbn. rewrite IH. f_equal.
  unfold frag_word. rewrite with_cmd_advance. unfold tw. symmetry. apply wl_width_ok, O.
Qed.
Lemma line_words_advance init last ws : Forall frag_ok (init ++ [last]) -> Forall good_frag (init ++ [last]) ->
  line_words (init ++ [last]) = Ok ws ->
  all_advance ws = natural init last /\ Forall wl_ok ws
  /\ fold_right (fun w a => tail_gap w + a) 0 ws = total gap init.
Proof.
  intros O G H. apply Forall_app in O as (O & OL). inversion OL as [|? ? (OL1 & OL2) _]; subst. apply Forall_app in G as (G & GL).
  inversion GL as [|? ? GL' _]; subst. clear OL GL.
  assert (WO : Forall wl_ok (map frag_word init)).
  { clear -O. induction O as [|f fs (X & _) _ IH]; constructor; auto. apply with_cmd_ok, X. }
  assert (TG : forall w c, tail_gap (with_cmd w c) = tail_gap w). { intros w c. destruct c; reflexivity. }
  assert (GI : fold_right (fun w a => tail_gap w + a) 0 (map frag_word init) = total gap init).
  { clear -TG. induction init as [|f fs IH]; cbn; auto. unfold total in *. rewrite IH. unfold frag_word at 1. rewrite TG. reflexivity. }
  assert (FA : forall a b, fold_right (fun w a => tail_gap w + a) 0 (a ++ b) = fold_right (fun w a => tail_gap w + a) 0 a + fold_right (fun w a => tail_gap w + a) 0 b).
  { clear. induction a as [|x a IH]; intros b; cbn; [ring|]. rewrite IH. ring. }
  unfold line_words in H. rewrite rev_app_distr in H. cbn [rev app] in H. rewrite rev_involutive in H.
  change (map (fun f => with_cmd (fr_txt f) (fr_cmd f)) init) with (map frag_word init) in H.
  unfold natural, bw, good_frag in *. destruct (fr_break last) as [tail|] eqn:B.
  - inversion H; subst ws; clear H. specialize (OL2 tail eq_refl). split; [|split].
    + rewrite all_advance_app, all_advance_one, with_cmd_advance, frags_advance, (wl_width_ok tail OL2) by exact O. reflexivity.
    + apply Forall_app. split; auto. constructor; [apply with_cmd_ok, OL2|constructor].
    + rewrite FA, GI. cbn. rewrite TG. unfold tail_gap. destruct GL' as (_ & -> & _). ring.
  - destruct (rev (map frag_word init)) as [|x r] eqn:RB.
    + inversion H; subst ws. assert (EI : map frag_word init = []) by (rewrite <- (rev_involutive (map _ _)), RB; reflexivity).
      assert (init = []) as -> by (destruct init; [auto|discriminate]). cbn. auto.
    + inversion H; subst ws; clear H.
      assert (EI : map frag_word init = rev r ++ [x]) by (rewrite <- (rev_involutive (map _ _)), RB; reflexivity).
      rewrite <- (frags_advance init O), <- GI, EI in *. apply Forall_app in WO as (W1 & W2). inversion W2; subst. split; [|split].
      * rewrite !all_advance_app, !all_advance_one, with_cmd_advance. ring.
      * apply Forall_app. split; auto. constructor; auto. apply with_cmd_ok; auto.
      * rewrite !FA. cbn. rewrite TG. reflexivity.
Qed.
End Width.
