(** * Property C84: kerning and indentation on lines.  Specification: KernSpec, LineKernSpec. *)
From Coq Require Import QArith Qcanon String.
From Verif Require Import Base Gfmt FontSpec FontProofs Num Fonts State TextSpec StateProofs Words WordsSpec WordProofs WordOps Parse Render RenderSpec RenderProofs WordWidth
  KernSpec KernProofs LineSpec Firstfit FirstfitProofs.
From Verif Require Import BuiltinTables Builtins Properties_Words Properties_Kern Properties_Firstfit.
From Verif Require Import KnuthPlass Optimum Properties_Optimum OptimalProofs LineKernSpec LineKernProofs.
Local Open Scope list_scope.
Open Scope nat_scope.

Section Parsed.
Context {ENV : Env QcNum}.
Definition slugs_of (w : @wordlike QcNum) : Prop := Forall is_slug (removelast (wl_boxes w)).
Lemma all_slugs (l : list (@box QcNum)) : Forall is_slug l -> Forall is_slug (removelast l).
Proof. induction 1 as [|b l B _ IH]; [constructor|]. destruct l; [constructor|]. rewrite removelast_cons by discriminate. constructor; auto. Qed.
Lemma word_new_slugs s st prev w : word_new s st prev = Ok w -> slugs_of (WWord w).
Proof.
  unfold word_new. destruct (tspace_parse s st prev) as [s' t]. intros E. apply bind_ok in E as (parts & _ & E). apply bind_ok in E as (bl & E & E2). apply Ok_inj in E2. subst w.
  unfold slugs_of. cbn [wl_boxes w_boxes]. apply all_slugs. revert prev bl E. induction parts as [|[|c p] parts IH]; intros prev bl E; cbn [slugs_new] in E; [apply Ok_inj in E; subst; constructor|discriminate|].
  apply bind_ok in E as (r & R & E). apply Ok_inj in E. subst bl. constructor; [exact I|]. eapply IH, R.
Qed.
Lemma simple_words_slugs fuel : forall t st prev ws x, simple_words fuel t st prev = Ok (ws, x) ->
  Forall (fun w => slugs_of (WWord w)) ws /\ match x with inr w => slugs_of (WWord w) | inl _ => True end.
Proof.
  induction fuel as [|fuel IH]; intros t st prev ws x; cbn [simple_words]; [discriminate|]. destruct (split_word t) as [[w r]|].
  2:{ intros E. apply Ok_inj in E. injection E as <- <-. split; [constructor|exact I]. }
  intros E. apply bind_ok in E as (y & Y & E). apply word_new_slugs in Y. destruct r.
  - apply Ok_inj in E. injection E as <- <-. split; [constructor|exact Y].
  - apply bind_ok in E as ([ws' x'] & Z & E). apply IH in Z as [A B]. apply Ok_inj in E. injection E as <- <-. split; [constructor; assumption|exact B].
Qed.
Lemma complete_word_slugs it head st w next : complete_word it head st = Ok (w, next) -> slugs_of (WWord w).
Proof.
  unfold complete_word. destruct (take_parts it) as [parts nx]. destruct parts as [|p parts].
  - intros E. apply bind_ok in E as (y & Y & E). apply Ok_inj in E. injection E as <- <-. eapply word_new_slugs; eauto.
  - destruct (segments _ _ _ _ _) as [[segs prev] st']. intros E. apply Ok_inj in E. injection E as <- <-. constructor.
Qed.
Lemma slugs_cmd w c : slugs_of w -> slugs_of (with_cmd w c).
Proof. destruct c; auto. Qed.
Lemma parse_slugs fuel : forall it st txt ws ex, parse_loop fuel it st txt = Ok (ws, ex) -> Forall slugs_of ws.
Proof.
  induction fuel as [|fuel IH]; intros it st txt ws ex H; cbn [parse_loop] in H; [discriminate|].
  destruct txt as [|c txt]; [inversion H; constructor|].
  apply bind_ok in H as ([ws0 last] & E0 & H). cbn [fst snd] in H.
  apply simple_words_slugs in E0 as (W0 & LA).
  assert (W0' : Forall slugs_of (map WWord ws0)). { apply Forall_map. exact W0. }
  destruct last as [head|w].
  - apply bind_ok in H as ([w next] & E1 & H). apply complete_word_slugs in E1; auto. destruct next as [[[|c0 r] it']|].
    + destruct it' as [|[cmd t] it'']; [inversion H; apply Forall_app; split; auto|].
      apply bind_ok in H as ([y e] & E & H). inversion H; subst. apply Forall_app; split; auto.
      constructor; [apply slugs_cmd; auto|]. eapply IH; eauto.
    + apply bind_ok in H as ([y e] & E & H). inversion H; subst. apply Forall_app; split; auto.
      constructor; [auto|]. eapply IH; eauto.
    + inversion H. apply Forall_app; split; auto.
  - destruct it as [|[cmd t] it'']; [inversion H; apply Forall_app; split; auto|].
    apply bind_ok in H as ([y e] & E & H). inversion H; subst. apply Forall_app; split; auto.
    constructor; [apply slugs_cmd; auto|]. eapply IH; eauto.
Qed.
Lemma into_words_slugs ps st cmd ws ex : into_words ps st = Ok (cmd, ws, ex) -> Forall slugs_of ws.
Proof.
  unfold into_words. destruct (fold_commands ps st []) as [[c x] st']. destruct x as [[t it]|].
  - intros E. apply bind_ok in E as ([y e] & Y & E). apply Ok_inj in E. injection E as <- <- <-. eapply parse_slugs; eauto.
  - intros E. apply Ok_inj in E. injection E as <- <- <-. constructor.
Qed.
Lemma full_measured b : full_box b -> measured_box b <> [].
Proof. intros F Z. destruct (measured_last b F) as (s & r & E). rewrite Z in E. discriminate. Qed.
Lemma make_winv w : wl_ok w -> full_wl w -> slugs_of w -> OptimumProofs.flat w -> OptimumTotal.has_text w -> winv w.
Proof.
  assert (W : forall x, word_ok x -> full_wl (WWord x) -> slugs_of (WWord x) -> OptimumTotal.has_text (WWord x) -> word_inv x).
  { intros x (O1 & O2) F S HT. split; [|split; [exact S|]].
    - unfold full_wl in F. cbn in F. rewrite Forall_forall in *. intros b B. split; [apply O1, B|apply full_measured, F, B].
    - unfold measured_word, full_wl, OptimumTotal.has_text in *. cbn [wl_boxes wl_tail] in *. destruct (w_boxes x) as [|b l].
      + destruct (w_tail x); [discriminate|]. destruct HT; congruence.
      + inversion F; subst. cbn. intros Z. apply app_eq_nil in Z as [Z _]. apply app_eq_nil in Z as [Z _]. revert Z. apply full_measured. assumption. }
  destruct w as [b|x|[b|x|w c'] c]; cbn [OptimumProofs.flat]; try tauto; cbn [winv wl_ok]; intros; apply W; auto.
Qed.
Lemma into_words_winv ps st cmd ws ex : all_split -> into_words ps st = Ok (cmd, ws, ex) -> Forall winv ws.
Proof.
  intros HY E. pose proof (into_words_ok _ _ _ _ _ E) as O. pose proof (into_words_full _ _ _ _ _ E) as F. pose proof (into_words_slugs _ _ _ _ _ E) as S.
  pose proof (OptimumProofs.into_words_flat _ _ _ _ _ E) as L. pose proof (pw_has_text _ HY (pw_parsed _ _ _ _ _ E)) as T.
  rewrite Forall_forall in *. intros w I. apply make_winv; auto.
Qed.
Lemma line_kq al d x ws : kerned_line al d x ws -> kq al d x ws.
Proof.
  revert d x. induction ws as [|w ws IH]; intros d x K; [exact I|]. split; [apply (K [] w ws eq_refl)|]. apply IH. intros a w' b ->.
  destruct (K (w :: a) w' b eq_refl) as (p & P & E). exists p. unfold measured_all in P. cbn [flat_map] in P. rewrite last_of_app in P. split; [exact P|].
  rewrite E. destruct a; reflexivity.
Qed.
Lemma adjusted_len w : winv w -> List.length (adjusted w) = List.length (measured w).
Proof.
  induction w as [b|w|w IH c]; cbn [winv adjusted measured]; [tauto| |exact IH]. intros _. unfold adj_word, measured_word. rewrite !app_length, adj_boxes_len. destruct (w_tail w); reflexivity.
Qed.
Lemma all_kq ws : Forall winv ws -> forall d, adjusted_all ws = kerned_text d (measured_all ws) -> kq false d 0%Qc ws.
Proof.
  induction 1 as [|w ws V _ IH]; intros d E; [exact I|]. unfold adjusted_all, measured_all in *. cbn [flat_map] in E. rewrite <- (moved_0 (kerned_text d _)) in E.
  apply kerned_cut in E as (E1 & E2); [|apply adjusted_len, V]. split; [exists d; auto|]. apply IH. rewrite E2. destruct (measured w); rewrite moved_0; reflexivity.
Qed.
Lemma kq_all ws : forall d, kq false d 0%Qc ws -> adjusted_all ws = kerned_text d (measured_all ws).
Proof.
  induction ws as [|w ws IH]; intros d K; [reflexivity|]. destruct K as ((p & [->|(C & _)] & K) & Kr); [|discriminate]. unfold adjusted_all, measured_all in *. cbn [flat_map].
  rewrite kerned_text_app, (IH _ Kr), K, moved_0. reflexivity.
Qed.
Lemma shape_steps fuel ws cols ae lead av cs : ff_shape fuel ws cols ae lead av false = Ok cs -> @steps QcNum ENV (Some ws) (placed cols cs) None.
Proof.
  unfold ff_shape. intros E. apply bind_ok in E as (cs' & E & E2). apply Ok_inj in E2. subst cs'.
  destruct av; [eapply shape_orphans_spec; eauto|eapply shape_simple_spec; eauto].
Qed.
Lemma winv_pruned_width w : winv w -> wl_pruned_width w = wl_advance (wl_pruned w).
Proof.
  induction w as [b|w|w IH c]; cbn [winv wl_pruned_width wl_pruned wl_advance]; [tauto| |exact IH]. intros (B & _).
  assert (O : word_ok (mkWord (w_boxes w) None (w_state w))). { split; [|exact I]. cbn. eapply Forall_impl; [|exact B]. intros b X. apply X. }
  transitivity (word_advance (word_pruned (mkWord (w_boxes w) None (w_state w)))); [apply (word_pruned_width_ok _ O)|].
  unfold word_pruned. destruct w as [bl [t|] s]; reflexivity.
Qed.
Lemma words_kq ps st cmd ws ex : all_split -> Forall (fun p : passage => snd p <> []) ps -> into_words ps st = Ok (cmd, ws, ex) ->
  kq true None 0%Qc ws /\ Forall winv ws /\ measured_all ws = styled ps st.
Proof.
  intros HY HF E. destruct (C75_words_kerned_partial _ _ _ _ _ _ HY HF E) as (M & K). split; [|split; [eapply into_words_winv; eauto|exact M]].
  apply line_kq. intros a w b EW. destruct (K a w b EW) as (p & P & A). exists p. split; [tauto|]. rewrite A. destruct a; rewrite moved_0; reflexivity.
Qed.
Lemma indent_zero w : wl_indent w (Q2Qc 0) = Ok w.
Proof.
  assert (T0 : @ntruthy QcNum (Q2Qc 0) = false) by (vm_compute; reflexivity).
  destruct w as [[s|l st]|w|w c]; cbn [wl_indent box_indent]; unfold slug_indent, word_indent; rewrite T0; reflexivity.
Qed.
(** from the words of a paragraph to its lines *)
Lemma lines_kern al ps st cmd ws ex (x : Qc) ws' fuel cols ae (lead : Qc) av cs before wd l after :
  kq al None 0%Qc ws -> Forall winv ws -> into_words ps st = Ok (cmd, ws, ex) -> indent_first ws x = Ok ws' ->
  ff_shape fuel ws' cols ae lead av false = Ok cs -> placed cols cs = before ++ (wd, l) :: after ->
  match before with
  | [] => kq al None (indent_of x (measured_all ws)) (l_words l)
          \/ kq al None 0%Qc (l_words l) /\ exists w r, ws' = w :: r /\ (wd < wl_advance (wl_pruned w))%Qc
  | _ => kq al None 0%Qc (l_words l)
         \/ exists b0 wd0 l0 w0, before = b0 ++ [(wd0, l0)]
            /\ (l_words l0 = [w0] /\ exists w k, adjusted w = moved k (adjusted w0) /\ (wd0 < wl_advance (wl_pruned w))%Qc)
            /\ kq al (last_of None (measured w0)) 0%Qc (l_words l)
  end.
Proof.
  intros K V E EI EF EP. destruct (indent_kq al ws x ws' V (into_words_ok _ _ _ _ _ E) K EI) as (K' & V').
  pose proof (steps_kern al _ _ _ (shape_steps _ _ _ _ _ _ _ EF) _ _ K' V' _ _ _ _ EP) as H. destruct before as [|b0 before].
  - destruct H as [H|(H & w & r & H2 & H3)]; [left; exact H|right]. split; [exact H|]. exists w, r. cbn [opt_list] in H2. split; [exact H2|].
    rewrite <- winv_pruned_width; [exact H3|]. rewrite H2 in V'. inversion V'; assumption.
  - destruct H as [H|(b1 & wd0 & l0 & w0 & H1 & (H2 & w & k & H3 & H4 & H5) & H6)]; [left; exact H|right]. exists b1, wd0, l0, w0. split; [exact H1|]. split; [|exact H6].
    split; [exact H2|]. exists w, k. split; [exact H4|]. rewrite <- winv_pruned_width; assumption.
Qed.
End Parsed.

(** ** C84.  Full claim: the first line of a paragraph starts with its indentation, the
    others at the edge of the column; and on every line each character is kerned with the
    one before it on the line (or, at the start of a word, not at all; see C75).

    For first-fit lines it holds, except that (1) the indentation is dropped if the
    first word is too wide for the line, and (2) after a line with one word that is too
    wide for it, the next line may start moved, as if it continued that line. *)
Definition too_wide {ENV : Env QcNum} (wd : Qc) (l : @line QcNum) (w0 : wordlike) : Prop :=
  l_words l = [w0] /\ exists w k, adjusted w = moved k (adjusted w0) /\ (wd < wl_advance (wl_pruned w))%Qc.
Theorem C84_first_fit_partial : forall (ENV : Env QcNum) ps st cmd ws ex (indent : Qc) ws' fuel cols ae (lead : Qc) av cs before wd l after,
  all_split -> Forall (fun p : passage => snd p <> []) ps ->
  into_words ps st = Ok (cmd, ws, ex) -> indent_first ws indent = Ok ws' ->
  ff_shape fuel ws' cols ae lead av false = Ok cs -> placed cols cs = before ++ (wd, l) :: after ->
  match before with
  | [] => kerned_line true None (indent_of indent (styled ps st)) (l_words l)
          \/ kerned_line true None 0%Qc (l_words l) /\ exists w r, ws' = w :: r /\ (wd < wl_advance (wl_pruned w))%Qc
  | _ => kerned_line true None 0%Qc (l_words l)
         \/ exists b0 wd0 l0 w0, before = b0 ++ [(wd0, l0)] /\ too_wide wd0 l0 w0
            /\ kerned_line true (last_of None (measured w0)) 0%Qc (l_words l)
  end.
Proof.
  intros ENV ps st cmd ws ex x ws' fuel cols ae lead av cs before wd l after HY HF E EI EF EP.
  destruct (words_kq _ _ _ _ _ HY HF E) as (K & V & M). pose proof (lines_kern true _ _ _ _ _ _ _ _ _ _ _ _ _ _ _ _ _ K V E EI EF EP) as H. rewrite M in H.
  destruct before as [|b0 before].
  - destruct H as [H|(H & X)]; [left|right; split; [|exact X]]; apply kq_line, H.
  - destruct H as [H|(b1 & wd0 & l0 & w0 & H1 & H2 & H3)]; [left; apply kq_line, H|right]. exists b1, wd0, l0, w0. split; [exact H1|]. split; [exact H2|]. apply kq_line, H3.
Qed.
Print Assumptions C84_first_fit_partial.
(** Text in one style that ends at a place for a line break is kerned throughout each line. *)
Theorem C84_one_style_partial : forall (ENV : Env QcNum) c t st cmd ws ex fuel cols ae (lead : Qc) av cs before wd l after,
  all_split -> t <> [] -> ends_at_break t = true ->
  into_words [(c, t)] st = Ok (cmd, ws, ex) ->
  ff_shape fuel ws cols ae lead av false = Ok cs -> placed cols cs = before ++ (wd, l) :: after ->
  adjusted_all (l_words l) = kerned_text None (measured_all (l_words l))
  \/ exists b0 wd0 l0 w0, before = b0 ++ [(wd0, l0)] /\ too_wide wd0 l0 w0
     /\ adjusted_all (l_words l) = kerned_text (last_of None (measured w0)) (measured_all (l_words l)).
Proof.
  intros ENV c t st cmd ws ex fuel cols ae lead av cs before wd l after HY NT EB E EF EP.
  destruct (C75_one_style_partial _ _ _ _ _ _ _ HY NT E) as (M & A). rewrite EB, <- M in A.
  assert (V := into_words_winv _ _ _ _ _ HY E). apply all_kq in A; [|exact V].
  assert (EI : indent_first ws (Q2Qc 0) = Ok ws) by (destruct ws; [reflexivity|]; cbn [indent_first]; rewrite indent_zero; reflexivity).
  pose proof (lines_kern false _ _ _ _ _ _ _ _ _ _ _ _ _ _ _ _ _ A V E EI EF EP) as H.
  destruct before as [|b0 before].
  - left. apply kq_all. destruct H as [H|(H & _)]; [|exact H]. replace (indent_of (Q2Qc 0) (measured_all ws)) with 0%Qc in H; [exact H|].
    unfold indent_of. destruct (measured_all ws) as [|[c0 s0] r]; [reflexivity|]. rewrite Qcdiv_def, !Qcmult_0_l. reflexivity.
  - destruct H as [H|(b1 & wd0 & l0 & w0 & H1 & H2 & H3)]; [left; apply kq_all, H|right]. exists b1, wd0, l0, w0. split; [exact H1|]. split; [exact H2|]. apply kq_all, H3.
Qed.
Print Assumptions C84_one_style_partial.
(** Justification moves nothing but spaces after words. *)
Definition widened {ENV : Env QcNum} (w w' : wordlike) : Prop :=
  measured w' = measured w /\ exists e, adjusted w' = stretched e (adjusted w) /\ (wl_tail w = None -> e = 0%Qc).
Theorem C84_justified : forall (ENV : Env QcNum) fuel ws cols ae (lead : Qc) av cs',
  ff_shape fuel ws cols ae lead av true = Ok cs' ->
  exists cs, ff_shape fuel ws cols ae lead av false = Ok cs
    /\ Forall2 (Forall2 (fun l l' => Forall2 widened (l_words l) (l_words l'))) cs cs'.
Proof.
  intros ENV fuel ws cols ae lead av cs' E. unfold ff_shape in *. apply bind_ok in E as (cs & E & J). exists cs. rewrite E. split; [reflexivity|].
  apply mapM_ok in J. eapply Forall2_imp; [|exact J]. intros ls ls' L. cbn beta in L. apply mapM_ok in L. eapply Forall2_imp; [|exact L]. intros l l' LJ. cbn beta in LJ. clear -LJ.
  unfold justify in LJ. destruct (pdiv _ _) as [per|].
  - apply bind_ok in LJ as (ws & M & LJ). apply Ok_inj in LJ. subst l'. cbn [l_words]. apply mapM_ok in M. eapply Forall2_imp; [|exact M]. intros w w' X. cbn beta in X. split.
    + apply wl_extend_alike in X. apply X.
    + eapply extend_adj; eauto.
  - apply Ok_inj in LJ. subst l'. induction (l_words l); constructor; auto. split; [reflexivity|]. exists 0%Qc. rewrite stretched_0. auto.
Qed.
Print Assumptions C84_justified.
(** For optimal lines: each line shows a piece of the text, kerned as in the paragraph
    (the first character of a line too is kerned with the one before it in the text, see
    [C84_optimal_refuted]); the first line starts with the indentation; justification moves
    nothing but spaces after words. *)
Theorem C84_optimal_partial : forall (ENV : Env QcNum) ps st cmd ws ex (indent : Qc) ws' fuel cols ae (lead : Qc) av ragged tolerance P out before l after,
  all_split -> Forall (fun p : passage => snd p <> []) ps ->
  into_words ps st = Ok (cmd, ws, ex) -> indent_first ws indent = Ok ws' ->
  (forall i, (0 <= @nfloordiv QcNum (snd (cols i)) lead)%Z) ->
  opt_shape fuel ws' cols ae lead av ragged tolerance P = Ok out -> concat out = before ++ l :: after ->
  exists earlier here later plain,
    styled ps st = earlier ++ here ++ later
    /\ (before = [] -> earlier = [])
    /\ is_line_of here (measured_all (ol_words l))
    /\ Forall2 widened plain (ol_words l) /\ (ragged = true -> ol_words l = plain)
    /\ kerned_line true (last_of None earlier) (match before with [] => indent_of indent (styled ps st) | _ => 0%Qc end) plain.
Proof.
  intros ENV ps st cmd ws ex x ws' fuel cols ae lead av ragged tol P out before l after HY HF E EI RM EO EC.
  destruct (words_kq _ _ _ _ _ HY HF E) as (K & V & M). destruct (indent_kq true ws x ws' V (into_words_ok _ _ _ _ _ E) K EI) as (K' & V'). rewrite M in K'.
  assert (FL := OptimumProofs.indent_flat _ _ _ (OptimumProofs.into_words_flat _ _ _ _ _ E) EI).
  assert (MI : measured_all ws' = measured_all ws).
  { destruct ws as [|w r]; cbn [indent_first] in EI; [apply Ok_inj in EI; subst; reflexivity|]. apply bind_ok in EI as (w' & EI & EI2). apply Ok_inj in EI2. subst ws'.
    apply wl_indent_alike in EI. unfold measured_all. cbn [flat_map]. f_equal. apply EI. }
  destruct ws' as [|w1 ws1].
  { assert (C : concat out = [oline_empty]).
    { unfold opt_shape in EO. cbn [into_boxes] in EO. unfold into_boxes in EO. cbn [words_boxes rmap bind] in EO. revert EO. cbn. destruct (Qceqb lead _); [discriminate|].
      destruct (_ =? 0)%Z; cbn; intros EO; apply Ok_inj in EO; subst out; reflexivity. }
    rewrite C in EC. destruct before as [|b0 [|b1 before]]; try discriminate. injection EC as <- <-. exists [], [], [], [].
    rewrite <- M, <- MI. split; [reflexivity|]. split; [reflexivity|]. split; [left; reflexivity|]. split; [constructor|]. split; [reflexivity|].
    intros a w b Z. destruct a; discriminate. }
  set (wsx := w1 :: ws1) in *.
  destruct (OptimumLines.out_lines fuel wsx cols ae lead av ragged tol P out RM FL ltac:(discriminate) EO) as (full & width & t & ls & EB & R & _ & EL).
  rewrite EC in EL.
  destruct (OptimumProofs.words_boxes_makes _ _ FL _ _ _ _ EB) as (MF & _ & G & _).
  pose proof (words_boxes_fk true _ _ FL V' None _ _ _ _ _ K' EB) as FK.
  destruct (rows_kq true _ _ _ _ _ _ _ _ R G _ _ FK _ _ _ (eq_sym EL)) as (fa & sl & fb & plain & adj & EF & Z & LW & ST & IL & KQ).
  exists (measured_all (map fr_txt fa)), (measured_all (map fr_txt sl)), (measured_all (map fr_txt fb)), plain.
  split; [rewrite <- M, <- MI, <- MF, EF, !map_app, !measured_all_app; reflexivity|].
  split; [intros B; apply Z in B; subst fa; reflexivity|].
  assert (FW : Forall2 widened plain (ol_words l)).
  { destruct ragged; [rewrite ST; clear; induction plain; constructor; auto; split; [reflexivity|]; exists 0%Qc; rewrite stretched_0; auto|].
    unfold oline_stretch in ST. apply bind_ok in ST as (ws2 & MM & ST). apply Ok_inj in ST. rewrite <- ST. cbn [ol_words] in MM |- *. apply mapM_ok in MM. eapply Forall2_imp; [|exact MM]. intros w w' X. cbn beta in X. split.
    - apply wl_stretch_alike in X. apply X.
    - eapply stretch_adj; eauto. }
  assert (MW : measured_all (ol_words l) = measured_all plain).
  { clear -FW. induction FW as [|w w' a b (X & _) _ IH]; [reflexivity|]. unfold measured_all in *. cbn [flat_map]. rewrite X, IH. reflexivity. }
  split; [rewrite MW; exact IL|]. split; [exact FW|]. split; [intros ->; exact ST|]. apply kq_line.
  destruct before as [|b0 before]; [assert (fa = []) as -> by (apply Z; reflexivity); exact KQ|]. destruct fa; [|exact KQ]. assert (b0 :: before = []) by (apply Z; reflexivity). discriminate.
Qed.
Print Assumptions C84_optimal_partial.
#[local] Existing Instance ex_standard.
(** the lines of a paragraph in Helvetica 10 with how much each character is moved *)
Definition moves (ws : list (@wordlike QcNum)) : str * list Q := (map fst (measured_all ws), map (fun x => this (snd x)) (adjusted_all ws)).
Definition first_fit_moves (t : str) (indent w : Z) (justified : bool) : res (list (str * list Q)) :=
  do p <- into_words [(NoOp, t)] ex_state; do ws' <- indent_first (snd (fst p)) (nZ indent);
  rmap (fun cs => map (fun l => moves (l_words l)) (concat cs)) (ff_shape 99 ws' (ex_cols w 100) false (Q2Qc 10) false justified).
Definition optimal_moves (t : str) (indent w : Z) (ragged : bool) : res (list (str * list Q)) :=
  do p <- into_words [(NoOp, t)] ex_state; do ws' <- indent_first (snd (fst p)) (nZ indent);
  rmap (fun cs => map (fun l => moves (ol_words l)) (concat cs)) (opt_shape 99 ws' (ex_cols w 100) false (Q2Qc 10) false ragged (nZ 2) Properties_KnuthPlass.ex_params).
(** The hypotheses are met: a T after a space on the line is kerned with it, the T at the
    start of a line is not moved, the first line is indented by half the size. *)
Lemma ex_standard_split : @all_split QcNum ex_standard.
Proof. intros h w N. split; [cbn; apply app_nil_r|]. repeat constructor. exact N. Qed.
Example C84_example :
  @all_split QcNum ex_standard
  /\ first_fit_moves (str_of "go To To To go ") 5 34 false
     = Ok [(str_of "go To", [500; 0; 0; -50; -120]%Q); (str_of "To To", [0; -120; 0; -50; -120]%Q); (str_of "go ", [0; 0; 0]%Q)]
  /\ first_fit_moves (str_of "go To To To go ") 5 34 true
     = Ok [(str_of "go To", [500; 0; 513; -50; -120]%Q); (str_of "To To", [0; -120; 1078; -50; -120]%Q); (str_of "go ", [0; 0; 0]%Q)].
Proof. split; [exact ex_standard_split|]. split; vm_compute; reflexivity. Qed.
(** The full claim is false.  After a line with a word that is too wide for it, the first
    T of the next line is moved to the left, out of the column; the indentation of the word
    that is too wide is dropped. *)
Theorem C84_first_fit_refuted :
  first_fit_moves (str_of "WWWW To go ") 5 20 false
  = Ok [(str_of "WWWW ", [0; 0; 0; 0; 0]%Q); (str_of "To", [-50; -120]%Q); (str_of "go ", [0; 0; 0]%Q)].
Proof. vm_compute. reflexivity. Qed.
Print Assumptions C84_first_fit_refuted.
(** Optimal lines start moved whenever the font kerns their first character with the space
    at the end of the line before. *)
Theorem C84_optimal_refuted :
  optimal_moves (str_of "go To To To go ") 5 34 true
  = Ok [(str_of "go To", [500; 0; 0; -50; -120]%Q); (str_of "To To", [-50; -120; 0; -50; -120]%Q); (str_of "go", [0; 0]%Q)].
Proof. vm_compute. reflexivity. Qed.
Print Assumptions C84_optimal_refuted.
