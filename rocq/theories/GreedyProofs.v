(** * GreedyProofs: first-fit lines are as full as possible. *)
From Coq Require Import QArith Qcanon Qround Lqa.
From Verif Require Import Base Gfmt FontSpec FontProofs Num Fonts State TextSpec StateProofs
  Words WordsSpec WordProofs WordOps Parse Render RenderSpec RenderProofs WordWidth LineSpec Firstfit FirstfitProofs FirstfitWidth
  KnuthPlass KPSpec KPProofs Properties_KnuthPlass Optimum OptimumProofs OptimumWidth OptimumLines OptimumTotal Properties_Optimum
  OptimalProofs.
From Verif Require Import GreedySpec.
From Coq Require Import Lia.
Open Scope nat_scope.

Section Greedy.
Context {ENV : Env QcNum}.
Open Scope Qc_scope.
Fixpoint wordy (w : wordlike) : Prop := match w with WBox _ => False | WWord _ => True | WCmd w _ => wordy w end.
Definition good (w : wordlike) : Prop := wordy w /\ wl_ok w /\ full_wl w.
Lemma flat_wordy w : flat w -> wordy w.
Proof. destruct w as [|w|[]]; cbn; tauto. Qed.

(** ** The pieces of a word *)
Lemma pieces_snoc bx b t st : word_pieces (mkWord (bx ++ [b]) t st) = map inner_piece bx ++ [last_piece [b] t st].
Proof. unfold word_pieces. cbn [w_boxes w_tail w_state]. rewrite rev_app_distr. cbn. rewrite rev_involutive. reflexivity. Qed.
Lemma pieces_cons b b2 r t st : word_pieces (mkWord (b :: b2 :: r) t st) = inner_piece b :: word_pieces (mkWord (b2 :: r) t st).
Proof.
  destruct (@exists_last _ (b2 :: r) ltac:(discriminate)) as (i & z & E). rewrite E.
  change (b :: i ++ [z]) with ((b :: i) ++ [z]). rewrite !pieces_snoc. reflexivity.
Qed.
Lemma pieces_app pre nb r t st : word_pieces (mkWord (pre ++ nb :: r) t st) = map inner_piece pre ++ word_pieces (mkWord (nb :: r) t st).
Proof.
  destruct (@exists_last _ (nb :: r) ltac:(discriminate)) as (i & z & E). rewrite E.
  rewrite app_assoc, !pieces_snoc, map_app, app_assoc. reflexivity.
Qed.
Lemma boxes_all l : all_advance (map (@WBox _) l) = boxes_advance l.
Proof. induction l as [|b l IH]; [reflexivity|]. cbn [map]. rewrite all_advance_cons, IH. reflexivity. Qed.
Lemma inner_in l : map pc_in (map inner_piece l) = map (@WBox _) l.
Proof. rewrite map_map. apply map_ext. reflexivity. Qed.
Lemma boxes_advance_app a b : boxes_advance (a ++ b) = boxes_advance a + boxes_advance b.
Proof. rewrite <- !boxes_all, map_app, all_advance_app. reflexivity. Qed.

(** a word is its pieces; without its last space, it is its pieces as a line *)
Lemma word_pieces_in w : all_advance (map pc_in (word_pieces w)) = word_advance w
  /\ measured_all (map pc_in (word_pieces w)) = measured_word w.
Proof.
  destruct w as [bx t st]. destruct bx as [|b0 r0]; [cbn; unfold word_advance; cbn; rewrite app_nil_r; split; [ring|reflexivity]|].
  destruct (@exists_last _ (b0 :: r0) ltac:(discriminate)) as (i & z & E). rewrite E.
  rewrite pieces_snoc, map_app, inner_in. cbn [map pc_in last_piece]. rewrite all_advance_app, all_advance_one, boxes_all.
  unfold word_advance. cbn [w_boxes w_tail w_state wl_advance]. unfold word_advance. cbn [w_boxes w_tail w_state].
  rewrite boxes_advance_app. split; [cbn [boxes_advance fold_right]; ring|].
  rewrite measured_all_app'. unfold measured_word. cbn [w_boxes w_tail w_state]. rewrite flat_map_app.
  unfold measured_all at 1. rewrite flat_map_concat_map, map_map.
  rewrite <- app_assoc. f_equal; [rewrite flat_map_concat_map; reflexivity|].
  cbn [measured_all flat_map measured]. unfold measured_word. cbn [w_boxes w_tail w_state flat_map]. rewrite !app_nil_r. reflexivity.
Qed.
Lemma wl_pieces_in w : wordy w -> all_advance (map pc_in (wl_pieces w)) = wl_advance w
  /\ measured_all (map pc_in (wl_pieces w)) = measured w.
Proof. induction w as [b|w|w IH c]; cbn [wordy]; [tauto| |exact IH]. intros _. apply word_pieces_in. Qed.
Lemma pieces_in ws : Forall wordy ws -> all_advance (map pc_in (pieces ws)) = all_advance ws
  /\ measured_all (map pc_in (pieces ws)) = measured_all ws.
Proof.
  induction 1 as [|w ws H _ (I1 & I2)]; [split; reflexivity|]. destruct (wl_pieces_in w H) as (A1 & A2).
  unfold pieces in *. cbn [flat_map]. rewrite map_app, all_advance_app, measured_all_app', I1, I2, A1, A2.
  rewrite all_advance_cons, measured_all_cons. split; reflexivity.
Qed.
Lemma wl_pieces_last w : wordy w -> exists a p, wl_pieces w = a ++ [p]
  /\ all_advance (map pc_in a) + all_advance (pc_end p) = wl_advance (wl_pruned w).
Proof.
  induction w as [b|w|w IH c]; cbn [wordy]; [tauto| |exact IH]. intros _. destruct w as [bx t st].
  assert (PR : wl_advance (wl_pruned (WWord (mkWord bx t st))) = boxes_advance bx).
  { cbn [wl_advance wl_pruned]. unfold word_pruned, word_advance. cbn [w_tail w_boxes w_state]. destruct t; cbn [w_tail w_boxes w_state]; ring. }
  rewrite PR. cbn [wl_pieces]. destruct bx as [|b0 r0].
  - exists [], (last_piece [] t st). split; [reflexivity|]. cbn. ring.
  - destruct (@exists_last _ (b0 :: r0) ltac:(discriminate)) as (i & z & E). rewrite E.
    exists (map inner_piece i), (last_piece [z] t st). split; [apply pieces_snoc|].
    rewrite inner_in, boxes_all, boxes_advance_app. cbn. ring.
Qed.
Lemma wl_pieces_ne w : wordy w -> wl_pieces w <> [].
Proof. intros H. destruct (wl_pieces_last w H) as (a & p & -> & _). intros C. destruct a; discriminate. Qed.
Lemma shown_words t x : Forall wordy t -> wordy x ->
  all_advance (shown (pieces (t ++ [x]))) = all_advance (prune_last (t ++ [x])).
Proof.
  intros T X. destruct (wl_pieces_last x X) as (a & p & E & A). unfold pieces. rewrite flat_map_app. cbn [flat_map]. rewrite app_nil_r.
  fold (pieces t). rewrite E, app_assoc, shown_snoc, all_advance_app, map_app, all_advance_app.
  destruct (pieces_in t T) as (-> & _). rewrite prune_last_app, all_advance_app, all_advance_one, <- A. ring.
Qed.

(** ** Without the first kerning *)
Lemma Qcle_refl' (a b : Qc) : a = b -> a <= b. Proof. intros ->. apply Qcle_refl. Qed.
Lemma sub_add (a b c : Qc) : @nadd QcNum (@nsub QcNum a b) c = @nsub QcNum (@nadd QcNum a c) b.
Proof. change (a - b + c = a + c - b). ring. Qed.
Lemma hyphen_without b : full_box b -> box_ok b -> box_with_hyphen (box_without_init_kern b) = box_without_init_kern (box_with_hyphen b).
Proof.
  destruct b as [s|l st]; cbn [full_box box_ok].
  - intros F _. unfold full_slug in F. destruct s as [txt kern width st]. cbn in F.
    unfold box_without_init_kern, box_with_hyphen, slug_without_init_kern, slug_with_hyphen, slug_last. cbn [sl_txt sl_kern sl_width sl_state].
    destruct kern as [|[[|n] k] kern]; cbn [sl_txt sl_kern sl_width sl_state].
    + destruct (ntruthy _); cbn; [|reflexivity]. destruct txt; [congruence|]. reflexivity.
    + f_equal. destruct (ntruthy _); cbn [app sl_txt sl_kern sl_width sl_state]; f_equal.
      all: apply sub_add.
    + destruct (ntruthy _); reflexivity.
  - intros (NE & _) _. destruct l as [|[s c] l]; [congruence|]. cbn. f_equal. f_equal.
    assert (EL : forall l : list (slug * command), segs_last ((slug_without_init_kern s, c) :: l) = segs_last ((s, c) :: l)).
    { intros l'. unfold segs_last. cbn [rev]. destruct (rev l') as [|x y]; cbn; [|reflexivity].
      unfold slug_last. destruct (slug_without_alike s) as (-> & _). reflexivity. }
    f_equal. f_equal. rewrite EL. reflexivity.
Qed.
Lemma no_init_kern b : box_has_init_kern b = false -> box_without_init_kern b = b.
Proof.
  destruct b as [s|[|[s c] l] st]; cbn; unfold slug_has_init_kern, slug_without_init_kern; auto;
    destruct (sl_kern s) as [|[[|n] k] kk]; auto; discriminate.
Qed.
Lemma dashed_without b : ends_dashed (box_without_init_kern b) = ends_dashed b.
Proof. unfold ends_dashed. destruct (box_without_alike b) as (-> & _). reflexivity. Qed.
Lemma pieces_first_without b r t st : full_box b -> box_ok b ->
  word_pieces (mkWord (box_without_init_kern b :: r) t st) = starting (word_pieces (mkWord (b :: r) t st)).
Proof.
  intros F OK. destruct r as [|b2 r].
  - change (word_pieces (mkWord [box_without_init_kern b] t st)) with [last_piece [box_without_init_kern b] t st].
    change (word_pieces (mkWord [b] t st)) with [last_piece [b] t st]. cbn [starting]. unfold at_start, last_piece. cbn [pc_in pc_end pc_space pc_hyphen map].
    f_equal. f_equal.
    + cbn. unfold word_without_init_kern. cbn [w_boxes w_tail w_state]. destruct (box_has_init_kern b) eqn:H; [reflexivity|]. rewrite no_init_kern; auto.
    + cbn [existsb]. rewrite dashed_without. reflexivity.
  - rewrite !pieces_cons. cbn [starting]. f_equal. unfold at_start, inner_piece. cbn [pc_in pc_end pc_space pc_hyphen map wl_without_init_kern].
    rewrite hyphen_without; auto.
Qed.
Lemma word_without_pieces w : full_wl (WWord w) -> word_ok w -> word_pieces (word_without_init_kern w) = starting (word_pieces w).
Proof.
  destruct w as [[|b r] t st]; unfold full_wl; cbn [wl_boxes w_boxes]; intros F (OK & _).
  - unfold word_without_init_kern. cbn [w_boxes w_tail w_state]. unfold word_pieces at 2. cbn [w_boxes rev starting w_tail w_state].
    unfold at_start, last_piece. cbn [pc_in pc_end pc_space pc_hyphen map wl_without_init_kern]. unfold word_without_init_kern. cbn [w_boxes w_tail w_state].
    destruct t as [t|]; [|reflexivity]. destruct (ntruthy (ts_kern t)); reflexivity.
  - cbn [w_boxes] in OK. inversion F; inversion OK; subst. rewrite <- pieces_first_without by assumption.
    unfold word_without_init_kern. cbn [w_boxes w_tail w_state]. destruct (box_has_init_kern b) eqn:H; [reflexivity|]. rewrite no_init_kern; auto.
Qed.
Lemma full_without b : full_box b -> full_box (box_without_init_kern b).
Proof.
  destruct b as [s|[|[s c] l] st]; cbn; unfold full_slug; auto.
  - destruct (slug_without_alike s) as (-> & _). auto.
  - intros (_ & F). split; [discriminate|]. inversion F; subst. constructor; auto. cbn in *. unfold full_slug in *. destruct (slug_without_alike s) as (-> & _). auto.
Qed.
Lemma start_in l : measured_all (map pc_in (starting l)) = measured_all (map pc_in l).
Proof.
  destruct l as [|p l]; [reflexivity|]. cbn [starting map]. rewrite !measured_all_cons. f_equal. cbn [at_start pc_in].
  destruct (wl_without_alike (pc_in p)) as (-> & _). reflexivity.
Qed.

(** ** Hyphenation *)
Lemma bsum_boxes l : Forall box_ok l -> bsum l = boxes_advance l.
Proof. apply boxes_width_ok. Qed.
Lemma word_first_piece w (sp : Qc) : word_ok w -> sp < word_pruned_width w ->
  (forall b r, w_boxes w = b :: r -> sp < box_width (box_with_hyphen b)) ->
  exists p r, word_pieces w = p :: r /\ sp < all_advance (pc_end p).
Proof.
  destruct w as [[|b [|b2 r]] t st]; unfold word_pruned_width; cbn [w_boxes]; intros (OK & _) H X; cbn [w_boxes] in OK.
  - exists (last_piece [] t st), []. split; [reflexivity|]. cbn [map] in H. rewrite nsum_nil_Qc in H. exact H.
  - exists (last_piece [b] t st), []. split; [reflexivity|]. cbn [last_piece pc_end map]. rewrite all_advance_one. cbn [wl_advance].
    inversion OK; subst. rewrite <- box_width_ok by assumption. cbn [map] in H. rewrite nsum_cons_Qc, nsum_nil_Qc, Qcplus_0_r in H. exact H.
  - rewrite pieces_cons. eexists _, _. split; [reflexivity|]. cbn [inner_piece pc_end]. rewrite all_advance_one. cbn [wl_advance].
    inversion OK; subst. rewrite <- box_width_ok by (apply box_with_hyphen_ok; assumption). exact (X _ _ eq_refl).
Qed.
Lemma word_hyph_pieces w (sp : @num QcNum) a b : word_ok w -> full_wl (WWord w) -> sp < word_pruned_width w ->
  word_hyphenate w sp = Ok (a, b) ->
  word_ok b /\ full_wl (WWord b) /\
  match a with
  | None => word_pieces b = starting (word_pieces w) /\ exists p r, word_pieces w = p :: r /\ sp < all_advance (pc_end p)
  | Some lw => exists fit x nb r, word_pieces w = fit ++ x :: nb :: r /\ word_pieces b = starting (nb :: r)
      /\ word_advance lw = all_advance (map pc_in fit) + all_advance (pc_end x) /\ word_advance lw <= sp
      /\ sp < all_advance (map pc_in (fit ++ [x])) + all_advance (pc_end nb)
      /\ exists st, measured_word lw = measured_all (map pc_in (fit ++ [x])) ++ [(45%N, st)]
  end.
Proof.
  intros OK F L E. destruct (word_hyphenate_ok _ _ _ _ OK E) as (OB & OA). split; [exact OB|].
  destruct a as [lw|].
  - destruct w as [bx t st]. unfold full_wl in *. cbn [wl_boxes w_boxes] in *. destruct OK as (OK & TK). cbn [w_boxes] in OK.
    assert (E' := E). unfold word_hyphenate in E'. cbn [w_boxes] in E'. destruct bx as [|b0 rest]; [discriminate|].
    destruct (nltb _ _) eqn:C; [discriminate|]. apply bind_ok in E' as ([[[fit st'] nb] r] & HL & E'). cbn [w_tail w_state] in E'. apply Ok_inj in E'. injection E' as <- <-.
    apply hyph_word in E as (pre & x & nb' & r' & E1 & E2 & E3 & E4 & E5 & E6). cbn [w_boxes w_tail] in *. subst fit.
    assert (NB : nb = nb' /\ r = r').
    { apply hyph_loop_split in HL as (pre' & x' & H1 & H2 & _). cbn [app] in H2.
      assert (LEN : List.length pre' = List.length pre) by (apply (f_equal (@List.length _)) in H2; rewrite !app_length in H2; cbn in H2; lia).
      assert (FN := f_equal (firstn (List.length pre)) E1). rewrite H1 in E1.
      assert (X : forall (p p' : list box) y y' z z', List.length p = List.length p' -> p ++ y :: z = p' ++ y' :: z' -> z = z').
      { induction p as [|h p IH]; intros [|h' p'] y y' z z' LL EE; try discriminate; cbn in *; [congruence|]. injection EE as _ EE. eapply IH; [|exact EE]. lia. }
      apply X in E1; [|exact LEN]. injection E1 as -> ->. auto. }
    destruct NB as (-> & ->). rewrite E1 in OK, F, L. assert (OK' := OK). apply Forall_app in OK as (OP & OK). inversion OK as [|? ? OX OK2]; subst. inversion OK2 as [|? ? ON OR]; subst.
    apply Forall_app in F as (FP & F). inversion F as [|? ? FX F2]; subst. inversion F2 as [|? ? FN FR]; subst.
    split; [constructor; [apply full_without, FN|exact FR]|].
    change (pre ++ x :: nb' :: r') with (pre ++ [x] ++ nb' :: r') in E1 |- *. rewrite E1, app_assoc, pieces_app, map_app, <- app_assoc.
    destruct (word_pieces (mkWord (nb' :: r') t st)) as [|pn pr] eqn:PN.
    { exfalso. destruct (@exists_last _ (nb' :: r') ltac:(discriminate)) as (i & z & EZ). rewrite EZ, pieces_snoc in PN. destruct i; discriminate. }
    exists (map inner_piece pre), (inner_piece x), pn, pr. cbn [map app]. split; [reflexivity|].
    split; [rewrite pieces_first_without, PN; auto|].
    rewrite map_app, !all_advance_app, inner_in, boxes_all. cbn [map inner_piece pc_in pc_end]. rewrite !all_advance_one. cbn [wl_advance].
    unfold word_advance. cbn [w_boxes w_tail]. rewrite boxes_advance_app. cbn [boxes_advance fold_right].
    assert (OH := box_with_hyphen_ok x OX). rewrite bsum_boxes in E5 by (apply Forall_app; split; auto). rewrite boxes_advance_app in E5. cbn [boxes_advance fold_right] in E5.
    split; [ring|]. split; [rewrite Qcplus_0_r; exact E5|]. split.
    + destruct r' as [|b2 r'].
      * change (word_pieces (mkWord [nb'] t st)) with [last_piece [nb'] t st] in PN. injection PN as <- <-. cbn [last_piece pc_end map]. rewrite all_advance_one. cbn [wl_advance].
        unfold word_pruned_width in L. cbn [w_boxes] in L. fold (bsum (pre ++ [x; nb'])) in L. rewrite bsum_boxes in L by exact OK'. rewrite boxes_advance_app in L. cbn [boxes_advance fold_right] in L.
        eapply Qclt_le_trans; [exact L|]. apply Qcle_refl'. ring.
      * rewrite pieces_cons in PN. injection PN as <- <-. cbn [inner_piece pc_end]. rewrite all_advance_one. cbn [wl_advance].
        rewrite bsum_boxes in E6 by (apply Forall_app; split; [exact OP|repeat constructor; auto; apply box_with_hyphen_ok; exact ON]).
        rewrite boxes_advance_app in E6. cbn [boxes_advance fold_right] in E6. eapply Qclt_le_trans; [exact E6|]. apply Qcle_refl'. ring.
    + exists (box_state x). unfold measured_word. cbn [w_boxes w_tail measured_tail]. rewrite flat_map_app. cbn [flat_map]. rewrite !app_nil_r, box_with_hyphen_measured.
      rewrite measured_all_app'. unfold measured_all. rewrite (flat_map_concat_map measured (map _ pre)), map_map. cbn [flat_map map measured]. rewrite app_nil_r, <- app_assoc.
      rewrite flat_map_concat_map. reflexivity.
  - assert (EB : b = word_without_init_kern w /\ (forall b0 r, w_boxes w = b0 :: r -> sp < box_width (box_with_hyphen b0))).
    { unfold word_hyphenate in E. destruct (w_boxes w) as [|b0 r]; [injection E as <-; split; [reflexivity|discriminate]|].
      destruct (nltb _ _) eqn:C; [injection E as <-; split; [reflexivity|]|apply bind_ok in E as ([[[? ?] ?] ?] & _ & E); discriminate].
      intros b1 r1 EE. injection EE as -> ->. apply Qcltb_lt in C. exact C. }
    destruct EB as (-> & X). split.
    { unfold full_wl, word_without_init_kern in *. cbn [wl_boxes] in *. destruct (w_boxes w) as [|b0 r] eqn:EB; [|destruct (box_has_init_kern b0); [|rewrite EB; exact F]].
      - destruct (w_tail w); [destruct (ntruthy _)|]; cbn [w_boxes]; rewrite ?EB; constructor.
      - inversion F; subst. cbn [w_boxes]. constructor; auto using full_without. }
    split; [apply word_without_pieces; auto|]. apply word_first_piece; auto.
Qed.
Lemma wordy_cmd w c : wordy w -> wordy (with_cmd w c). Proof. destruct c; auto. Qed.
Lemma pieces_cmd w c : wl_pieces (with_cmd w c) = wl_pieces w. Proof. destruct c; reflexivity. Qed.
Lemma good_cmd w c : good w -> good (with_cmd w c).
Proof. intros (A & B & C). split; [apply wordy_cmd, A|]. split; [apply with_cmd_ok, B|apply full_cmd, C]. Qed.
Lemma hyph_pieces w (sp : @num QcNum) : forall a b, good w -> sp < wl_pruned_width w -> wl_hyphenate w sp = Ok (a, b) ->
  good b /\
  match a with
  | None => wl_pieces b = starting (wl_pieces w) /\ exists p r, wl_pieces w = p :: r /\ sp < all_advance (pc_end p)
  | Some lw => exists fit x nb r, wl_pieces w = fit ++ x :: nb :: r /\ wl_pieces b = starting (nb :: r)
      /\ wl_advance lw = all_advance (map pc_in fit) + all_advance (pc_end x) /\ wl_advance lw <= sp
      /\ sp < all_advance (map pc_in (fit ++ [x])) + all_advance (pc_end nb)
      /\ exists st, measured lw = measured_all (map pc_in (fit ++ [x])) ++ [(45%N, st)]
  end.
Proof.
  induction w as [b0|w|w IH c]; intros a b (G1 & G2 & G3) L E; cbn in E; [destruct G1| |].
  - apply rmap_inv in E as ((a' & b') & E & EQ). cbn [fst snd] in EQ. injection EQ as -> ->.
    apply word_hyph_pieces in E as (E1 & E2 & E3); auto. split; [split; [exact I|auto]|]. destruct a'; exact E3.
  - apply rmap_inv in E as ((a' & b') & E & EQ). cbn [fst snd] in EQ. injection EQ as -> ->.
    apply IH in E as (E1 & E2); [|split; [exact G1|auto]|exact L]. split; [apply good_cmd, E1|]. rewrite pieces_cmd. exact E2.
Qed.
(** ** The smallest part of a word *)
Lemma minimal_pieces w : forall a b, good w -> wl_minimal w = (a, b) ->
  match b with
  | None => (exists p, wl_pieces w = [p]) /\ measured a = measured w
  | Some y => good y /\ exists p p2 r, wl_pieces w = p :: p2 :: r /\ wl_pieces y = starting (p2 :: r)
      /\ exists st, measured a = measured (pc_in p) ++ [(45%N, st)]
  end.
Proof.
  induction w as [b0|w|w IH c]; intros a b (G1 & G2 & G3) E; cbn in E; [destruct G1| |].
  - destruct w as [[|b1 [|b2 r]] t st]; cbn in E; injection E as <- <-; cbn.
    + split; [eexists; reflexivity|reflexivity].
    + split; [eexists; reflexivity|reflexivity].
    + destruct G2 as (OK & TK). cbn [w_boxes] in OK. unfold full_wl in *. cbn [wl_boxes w_boxes] in *.
      inversion OK as [|? ? O1 OK2]; subst. inversion OK2 as [|? ? O2 OK3]; subst. inversion G3 as [|? ? F1 G4]; subst. inversion G4 as [|? ? F2 F3]; subst.
      split. { split; [exact I|]. split; [split; [constructor; auto using box_without_init_kern_ok|exact TK]|]. unfold full_wl. cbn. constructor; auto using full_without. }
      rewrite pieces_cons.
      destruct (word_pieces (mkWord (b2 :: r) t st)) as [|pn pr] eqn:PN.
      { exfalso. destruct (@exists_last _ (b2 :: r) ltac:(discriminate)) as (i & z & EZ). rewrite EZ, pieces_snoc in PN. destruct i; discriminate. }
      exists (inner_piece b1), pn, pr. split; [reflexivity|]. split; [rewrite pieces_first_without, PN; auto|].
      exists (box_state b1). unfold measured_word. cbn. rewrite !app_nil_r. apply box_with_hyphen_measured.
  - destruct (wl_minimal w) as [x y] eqn:M. specialize (IH x y ltac:(split; [exact G1|auto]) eq_refl). destruct y as [y|]; injection E as <- <-; cbn [wl_pieces].
    + destruct IH as (IH1 & IH2). split; [apply good_cmd, IH1|]. rewrite pieces_cmd. exact IH2.
    + destruct IH as (IH1 & IH2). split; [exact IH1|]. cbn [measured]. rewrite <- IH2. destruct c; reflexivity.
Qed.

(** ** One line *)
Lemma measured_one w : measured_all [w] = measured w. Proof. apply app_nil_r. Qed.
Definition over (W : Qc) (ln : list piece) : Prop := List.length ln = 1%nat /\ W < all_advance (shown ln).
Lemma pieces_cons' w ws : pieces (w :: ws) = wl_pieces w ++ pieces ws. Proof. reflexivity. Qed.
Lemma pieces_app' a b : pieces (a ++ b) = pieces a ++ pieces b. Proof. apply flat_map_app. Qed.
Lemma starting_app a b : a <> [] -> starting (a ++ b) = starting a ++ b.
Proof. destruct a; [congruence|reflexivity]. Qed.
Lemma pieces_ne ws : Forall wordy ws -> ws <> [] -> pieces ws <> [].
Proof.
  intros [|w l H _] NE; [congruence|]. rewrite pieces_cons'. intros C. apply app_eq_nil in C as (C & _). apply (wl_pieces_ne w H C).
Qed.
Lemma good_wordy l : Forall good l -> Forall wordy l.
Proof. apply Forall_impl. intros w (H & _). exact H. Qed.
Lemma good_ok l : Forall good l -> Forall wl_ok l.
Proof. apply Forall_impl. intros w (_ & H & _). exact H. Qed.
Lemma line_of_words t x : is_line_of (measured_all (t ++ [x])) (measured_all (t ++ [wl_pruned x])).
Proof.
  rewrite !measured_all_app'. destruct (wl_pruned_measured x) as (A & B & _). destruct (wl_tail x) as [tl|] eqn:T.
  - right; right. destruct (B tl eq_refl) as (s1 & B1). exists s1. cbn [measured_all flat_map]. rewrite !app_nil_r, B1. apply app_assoc.
  - rewrite A by reflexivity. left. reflexivity.
Qed.
Lemma take_line_full ws (W : @num QcNum) q l : Forall good ws -> ws <> [] -> take_line ws W = Ok (q, l) ->
  exists ln rest, pieces ws = ln ++ rest /\ ln <> [] /\ Forall good (opt_list q) /\ shows_pieces ln (l_words l)
   /\ (all_advance (shown ln) <= W /\ (q <> None -> all_advance (l_words l) = all_advance (shown ln)) \/ over W ln)
   /\ match q with
      | None => rest = []
      | Some q' => exists p r, rest = p :: r
          /\ (W < all_advance (shown (ln ++ [p])) \/ over W ln)
          /\ (pieces q' = starting rest \/ pieces q' = rest /\ over W ln)
      end.
Proof.
  intros G NE E. assert (TL := take_line_width _ _ _ _ (good_ok _ G) E). revert E.
  unfold take_line. destruct (fit_words ws W []) as [[c sp] stop] eqn:F.
  apply (fit_words_width _ _ _ _ _ _ (good_ok _ G)) in F as (t & -> & -> & F1 & F2 & F3). cbn [app].
  destruct stop as [[w r]|].
  2:{ specialize (F3 eq_refl). subst t. intros E. injection E as <- <-. cbn [l_words opt_list].
      exists (pieces ws), []. rewrite app_nil_r. split; [reflexivity|]. split; [apply pieces_ne; auto using good_wordy|].
      split; [constructor|]. split.
      { left. destruct (pieces_in ws (good_wordy _ G)) as (_ & ->). reflexivity. }
      split; [|reflexivity]. left. split; [|congruence].
      destruct (@exists_last _ ws NE) as (t & x & ->). assert (GW := good_wordy _ G). apply Forall_app in GW as (G1 & G2). inversion G2; subst.
      rewrite shown_words by assumption. apply F1, NE. }
  destruct (F2 w r eq_refl) as [F4 EW]. clear F2 F3. subst ws. apply Forall_app in G as [Gt Gr]. inversion Gr as [|? ? Gw Gr']; subst.
  assert (Wt := good_wordy _ Gt). destruct (pieces_in t Wt) as (PI1 & PI2).
  intros E. apply bind_ok in E as ([last dangling] & HY & E).
  destruct (hyph_pieces w _ _ _ Gw F4 HY) as (GD & H). destruct last as [lw|].
  - destruct H as (fit & x & nb & rr & H1 & H2 & H3 & H4 & H5 & (st & H6)). injection E as <- <-. cbn [l_words opt_list].
    exists (pieces t ++ fit ++ [x]), ((nb :: rr) ++ pieces r). rewrite pieces_app', pieces_cons', H1.
    split; [rewrite <- !app_assoc; reflexivity|]. split; [destruct (pieces t); [destruct fit|]; discriminate|]. split; [constructor; auto|].
    rewrite app_assoc, shown_snoc, map_app, !all_advance_app, all_advance_one, PI1, H3.
    split. { right; left. exists st. rewrite (measured_all_app' t), measured_one, H6, <- (app_assoc (pieces t)), (map_app _ (pieces t)), (measured_all_app' (map pc_in (pieces t))), PI2. apply app_assoc. }
    rewrite H3 in H4. clear TL F1.
    split. { left. split; [|intros _; ring]. set (a := all_advance t) in *. set (b := all_advance (map pc_in fit)) in *. set (d := all_advance (pc_end x)) in *.
             clearbody a b d. clear - H4. qc. }
    eexists _, _. split; [reflexivity|]. split; [left|left; rewrite pieces_cons', H2; reflexivity].
    rewrite shown_snoc, !map_app, !all_advance_app, PI1. rewrite map_app, all_advance_app in H5.
    set (a := all_advance t) in *. set (b := all_advance (map pc_in fit)) in *. set (d := all_advance (pc_end nb)) in *. set (e := all_advance (map pc_in [x])) in *.
    clearbody a b d e. clear - H5. qc.
  - destruct H as (H1 & p & pr & H2 & H3).
    assert (NEXT : W < all_advance (shown (pieces t ++ [p]))).
    { rewrite shown_snoc, all_advance_app, PI1. set (a := all_advance t) in *. set (b := all_advance (pc_end p)) in *. clearbody a b. clear - H3. qc. }
    destruct (rev t) as [|x rt] eqn:RT.
    + assert (t = []) as -> by (destruct t; auto; apply (f_equal (@List.length _)) in RT; rewrite rev_length in RT; discriminate).
      cbn [app] in NEXT |- *. assert (OV : over W [p]) by (split; [reflexivity|exact NEXT]).
      rewrite pieces_cons'. destruct (wl_minimal dangling) as [x leftover] eqn:M. apply minimal_pieces in M; [|exact GD]. rewrite H1, H2 in M. cbn [starting] in M.
      exists [p], (pr ++ pieces r). rewrite H2. split; [reflexivity|]. split; [discriminate|]. 
      destruct leftover as [y|].
      * destruct M as (GY & p1 & p2 & r2 & M1 & M2 & st & M3). injection M1 as <- ->. injection E as <- <-. cbn [l_words opt_list].
        split; [auto|]. split. { right; left. exists st. cbn [measured_all flat_map map]. rewrite !app_nil_r, M3. cbn [at_start pc_in].
          destruct (wl_without_alike (pc_in p)) as (-> & _). reflexivity. }
        split; [right; exact OV|]. eexists _, _. split; [reflexivity|]. split; [right; exact OV|]. left. rewrite pieces_cons', M2. reflexivity.
      * destruct M as ((p1 & M1) & M2). injection M1 as _ ->. assert (ML : measured x = measured (pc_in p)).
        { rewrite M2. destruct Gw as (Ww & _). destruct (wl_pieces_in w Ww) as (_ & X). rewrite H2 in X. cbn in X. rewrite app_nil_r in X. rewrite X.
          destruct GD as (Wd & _). destruct (wl_pieces_in dangling Wd) as (_ & Y). rewrite <- Y, H1, start_in, H2. cbn. rewrite app_nil_r. exact X. }
        destruct r as [|r0 r]; injection E as <- <-; cbn [l_words opt_list].
        -- split; [constructor|]. split; [left; cbn [measured_all flat_map map]; rewrite !app_nil_r; exact ML|]. split; [right; exact OV|reflexivity].
        -- split; [exact Gr'|]. split; [left; cbn [measured_all flat_map map]; rewrite !app_nil_r; exact ML|]. split; [right; exact OV|].
           cbn [app]. destruct (pieces (r0 :: r)) as [|p2 r2] eqn:PR; [exfalso; revert PR; apply pieces_ne; [apply good_wordy, Gr'|discriminate]|].
           exists p2, r2. split; [reflexivity|]. split; [right; exact OV|]. right. auto.
    + assert (ET : t = rev rt ++ [x]) by (rewrite <- (rev_involutive t), RT; reflexivity).
      specialize (F1 ltac:(intros C; rewrite C in RT; discriminate)).
      exists (pieces t), (wl_pieces w ++ pieces r). rewrite pieces_app', pieces_cons'. split; [reflexivity|].
      split; [apply pieces_ne; [exact Wt|rewrite ET; destruct (rev rt); discriminate]|].
      assert (SH : all_advance (shown (pieces t)) = all_advance (prune_last t)).
      { rewrite ET in Wt |- *. apply Forall_app in Wt as (W1 & W2). inversion W2; subst. apply shown_words; auto. }
      assert (OX : wl_ok x). { rewrite ET in Gt. apply Forall_app in Gt as (_ & Gt). inversion Gt as [|? ? (_ & O & _) _]; subst. exact O. }
      assert (Q2 : q = Some (dangling :: r) /\ shows_pieces (pieces t) (l_words l) /\ all_advance (l_words l) = all_advance (shown (pieces t))).
      { unfold shows_pieces. rewrite PI2, SH. destruct (ntruthy (wl_prunable x)) eqn:TR; injection E as <- <-; cbn [l_words].
        - split; [reflexivity|]. rewrite ET, removelast_last. split; [apply line_of_words|]. rewrite prune_last_app. reflexivity.
        - split; [reflexivity|]. split; [left; reflexivity|]. apply negb_false_iff in TR. apply Qceqb_eq in TR.
          rewrite ET, prune_last_app, !all_advance_app, !all_advance_one, (wl_advance_split x OX), TR. change (@n0 QcNum) with 0. ring. }
      destruct Q2 as (-> & Q2 & Q3). clear E TL. cbn [opt_list]. split; [constructor; auto|]. split; [exact Q2|].
      split; [left; split; [rewrite SH; exact F1|intros _; exact Q3]|].
      rewrite H2. exists p, (pr ++ pieces r). split; [reflexivity|]. split; [left; exact NEXT|]. left. rewrite pieces_cons', H1, H2. reflexivity.
Qed.

(** ** All lines *)
Definition flag (k : bool) (l : list piece) : list piece := if k then l else starting l.
Lemma flag_app k a b : a <> [] -> flag k (a ++ b) = flag k a ++ b.
Proof. destruct k; [reflexivity|apply starting_app]. Qed.
Lemma flag_inv k l ln rest : ln <> [] -> flag k l = ln ++ rest -> exists ln0, ln = flag k ln0 /\ l = ln0 ++ rest /\ ln0 <> [].
Proof.
  destruct k; cbn; [intros; exists ln; auto|]. destruct l as [|p l]; [destruct ln; [congruence|discriminate]|]. cbn [starting].
  destruct ln as [|x ln]; [congruence|]. intros _ E. injection E as <- ->. exists (p :: ln). split; [reflexivity|]. split; [reflexivity|discriminate].
Qed.
Lemma flag_len k l : List.length (flag k l) = List.length l.
Proof. destruct k; [|destruct l]; reflexivity. Qed.
Lemma over_wide W k ln : over W (flag k ln) <-> too_wide W k ln.
Proof. unfold over, too_wide. rewrite flag_len. reflexivity. Qed.
Lemma steps_full ws ls : steps (Some ws) ls None -> forall k pcs, Forall good ws -> ws <> [] -> pieces ws = flag k pcs ->
  exists lns, concat (map snd lns) = pcs /\ hd false (map fst lns) = k
   /\ Forall2 (fun ln l => shows_pieces (snd ln) (l_words (snd l))) lns ls
   /\ all_full (map fst ls) lns
   /\ Forall2 (fun ln l => too_wide (fst l) (fst ln) (snd ln) \/ all_advance (l_words (snd l)) = line_width (fst ln) (snd ln))
        (removelast lns) (removelast ls).
Proof.
  remember (Some ws) as q0 eqn:EQ. remember (@None (list wordlike)) as z eqn:EZ. intros ST. revert ws EQ.
  induction ST as [q|ws W q l r z T ST IH]; intros ws' EQ k pcs G NE P; subst; [discriminate|]. injection EQ as <-.
  destruct (take_line_full _ _ _ _ G NE T) as (ln & rest & T1 & T2 & T3 & T4 & T5 & T6).
  rewrite P in T1. destruct (flag_inv _ _ _ _ T2 T1) as (ln0 & -> & -> & NE0).
  assert (SH : shows_pieces ln0 (l_words l)).
  { unfold shows_pieces in *. destruct k; [exact T4|]. cbn [flag] in T4. rewrite start_in in T4. exact T4. }
  destruct q as [q|].
  2:{ subst rest. apply steps_none in ST as (-> & _). exists [(k, ln0)]. cbn [map snd fst concat hd app removelast].
      split; [reflexivity|]. split; [reflexivity|]. split; [constructor; [exact SH|constructor]|]. split; [|constructor].
      cbn [all_full]. split; [exact NE0|]. split; [|split; [exact I|exact I]]. destruct T5 as [(T5 & _)|T5]; [left; exact T5|right; apply over_wide, T5]. }
  destruct T6 as (p & pr & -> & T7 & T8). cbn [opt_list] in T3.
  assert (NQ : q <> []) by (intros ->; destruct T8 as [T8|(T8 & _)]; discriminate).
  assert (exists k', pieces q = flag k' (p :: pr) /\ (k' = true -> too_wide W k ln0)) as (k' & PQ & K').
  { destruct T8 as [T8|(T8 & O)]; [exists false; split; [exact T8|discriminate]|exists true; split; [exact T8|intros _; apply over_wide, O]]. }
  destruct (IH eq_refl q eq_refl k' (p :: pr) T3 NQ PQ) as (lns & I1 & I2 & I3 & I4 & I5).
  destruct lns as [|[k1 ln1] lns]; [discriminate|]. cbn [map fst hd] in I2. subst k1.
  assert (exists ln1', ln1 = p :: ln1') as (ln1' & ->).
  { destruct (map fst r) as [|W1 Ws]; cbn [all_full] in I4; [destruct I4|]. destruct I4 as (N1 & _). destruct ln1 as [|p' ln1]; [congruence|]. cbn in I1. injection I1 as -> _. eauto. }
  exists ((k, ln0) :: (k', p :: ln1') :: lns). split; [cbn [map snd concat]; cbn [map snd concat] in I1; rewrite <- I1; reflexivity|]. split; [reflexivity|].
  split; [constructor; [exact SH|exact I3]|]. split.
  - cbn [map fst]. cbn [all_full] in I4 |- *. split; [exact NE0|]. split; [destruct T5 as [(T5 & _)|T5]; [left; exact T5|right; apply over_wide, T5]|].
    split; [|exact I4]. split; [|exact K']. destruct T7 as [T7|T7]; [left|right; apply over_wide, T7].
    rewrite <- flag_app in T7 by exact NE0. exact T7.
  - destruct r as [|p0 r]; [inversion I3|].
    change (removelast ((W, l) :: p0 :: r)) with ((W, l) :: removelast (p0 :: r)).
    change (removelast ((k, ln0) :: (k', p :: ln1') :: lns)) with ((k, ln0) :: removelast ((k', p :: ln1') :: lns)).
    constructor; [|exact I5]. cbn [fst snd]. destruct T5 as [(_ & T5)|T5]; [right; apply T5; discriminate|left; apply over_wide, T5].
Qed.

(** ** No other way to cut the text has fewer lines *)
Lemma app_compare {A} (a b c d : list A) : a ++ b = c ++ d -> (exists x, c = a ++ x /\ b = x ++ d) \/ (exists y z, a = c ++ y :: z /\ d = (y :: z) ++ b).
Proof.
  revert c. induction a as [|h a IH]; intros [|g c] E; cbn in *.
  - left. exists []. auto.
  - left. exists (g :: c). auto.
  - right. exists h, a. split; [reflexivity|]. cbn. congruence.
  - injection E as -> E. destruct (IH _ E) as [(x & -> & ->)|(y & z & -> & ->)]; [left; exists x|right; exists y, z]; auto.
Qed.
Lemma fewest pcs : parts_narrower pcs -> forall lns Ws k other ko x a,
  pcs = a ++ x ++ concat (map snd lns) -> concat other = x ++ concat (map snd lns) ->
  hd false (map fst lns) = k -> (x = [] -> ko = k) -> all_full Ws lns ->
  Forall (fun ln => ln <> []) other ->
  Forall (fun y => line_width (fst (snd y)) (snd (snd y)) <= fst y)
    (combine Ws (match other with [] => [] | o :: r => (ko, o) :: map (pair false) r end)) ->
  (List.length lns <= List.length other)%nat.
Proof.
  intros PN. induction lns as [|[kg ln] lns IH]; intros Ws k other ko x a EP EO EK XK AF ON OF; [cbn; lia|].
  cbn [map fst hd] in EK. subst kg. destruct Ws as [|W Ws]; [destruct AF|]. cbn [all_full] in AF. destruct AF as (NE & _ & NX & AF).
  destruct other as [|o other]; [cbn in EO; destruct x; [destruct ln; [congruence|discriminate]|discriminate]|].
  cbn [combine] in OF. assert (OW := Forall_inv OF). assert (OF' := Forall_inv_tail OF). cbn [fst snd] in OW. assert (NO := Forall_inv ON). assert (ON' := Forall_inv_tail ON).
  destruct lns as [|[k' [|p ln']] lns]; [cbn; lia|destruct NX|]. destruct NX as (NX & KX). cbn [map snd concat] in EP, EO.
  assert (PART : forall l z, o = x ++ l ++ z -> (exists c, pcs = a ++ x ++ l ++ z ++ c) -> l <> [] -> line_width k l <= W).
  { intros l z -> (c & EC) NL. destruct (PN a x l z c EC NL) as (P1 & P2). destruct x as [|x0 x].
    - rewrite (XK eq_refl) in OW. eapply Qcle_trans; [apply P2|exact OW].
    - eapply Qcle_trans; [apply P1; discriminate|exact OW]. }
  assert (CL : exists x', x ++ ln = o ++ x' /\ (k' = true -> x' <> [])).
  { rewrite app_assoc in EO. destruct (app_compare _ _ _ _ EO) as [(x' & E1 & E2)|(y & z & E1 & E2)].
    - exists x'. split; [exact E1|]. intros K C. subst x'. rewrite app_nil_r in E1. destruct (KX K) as (_ & TW).
      apply (Qclt_not_le _ _ TW). apply (PART ln []); [rewrite app_nil_r; auto| |exact NE]. eexists. exact EP.
    - exfalso. cbn in E2. injection E2 as <- E2. rewrite <- app_assoc in E1. destruct NX as [NX|(_ & TW)].
      + apply (Qclt_not_le _ _ NX). apply (PART (ln ++ [p]) z); [rewrite <- app_assoc; exact E1| |destruct ln; discriminate].
        exists (concat other). rewrite EP, <- app_assoc. cbn. rewrite E2. reflexivity.
      + apply (Qclt_not_le _ _ TW). apply (PART ln (p :: z)); [exact E1| |exact NE]. exists (concat other). rewrite EP. cbn. rewrite E2. reflexivity. }
  destruct CL as (x' & E1 & K').
  assert (EO' : concat other = x' ++ concat (map snd ((k', p :: ln') :: lns))).
  { cbn [concat] in EO. rewrite app_assoc, E1, <- app_assoc in EO. apply app_inv_head in EO. exact EO. }
  cbn [List.length]. apply le_n_S.
  apply (IH Ws k' other false x' (a ++ o)); auto.
  - rewrite EP. rewrite (app_assoc x), E1, <- !app_assoc. reflexivity.
  - intros ->. destruct k'; [exfalso; apply K'; reflexivity|reflexivity].
  - destruct other as [|o2 other]; [destruct Ws; constructor|exact OF'].
Qed.

(** ** When nothing is out of the ordinary, parts are narrower *)
Lemma shown_one p : shown [p] = pc_end p. Proof. reflexivity. Qed.
Lemma width_one k p : line_width k [p] = piece_end k p.
Proof. unfold line_width, piece_end. destruct k; cbn [starting]; rewrite shown_one; reflexivity. Qed.
Lemma width_cons k p l : l <> [] -> line_width k (p :: l) = piece_in k p + line_width true l.
Proof.
  intros NE. destruct (@exists_last _ l NE) as (i & z & ->). unfold line_width, piece_in.
  assert (X : forall p, all_advance (shown (p :: i ++ [z])) = wl_advance (pc_in p) + all_advance (shown (i ++ [z]))).
  { intros p0. change (p0 :: i ++ [z]) with ((p0 :: i) ++ [z]). rewrite !shown_snoc. cbn [map app]. rewrite all_advance_cons. reflexivity. }
  destruct k; cbn [starting]; apply X.
Qed.
Lemma tidy_tl p pcs : tidy (p :: pcs) -> tidy pcs.
Proof. intros T a q q' c ->. apply (T (p :: a) q q' c eq_refl). Qed.
Lemma tidy_app a b : tidy (a ++ b) -> tidy b.
Proof. induction a as [|p a IH]; [auto|]. intros T. apply IH. eapply tidy_tl, T. Qed.
Lemma tidy_prefix l : forall y c k, tidy (l ++ y ++ c) -> l <> [] -> line_width k l <= line_width k (l ++ y).
Proof.
  induction l as [|p l IH]; intros y c k T NE; [congruence|]. destruct l as [|p2 l].
  - destruct y as [|p' y]; [apply Qcle_refl|]. cbn [app] in *. rewrite width_one, width_cons by discriminate.
    destruct (T [] p p' (y ++ c) eq_refl k true) as (T2 & _).
    eapply Qcle_trans; [exact T2|]. apply Qcplus_le_compat; [apply Qcle_refl|].
    clear - T ENV. revert p p' T. induction y as [|p2 y IHy]; intros p p' T; [rewrite width_one; apply Qcle_refl|].
    rewrite width_cons by discriminate. destruct (T [p] p' p2 (y ++ c) eq_refl true true) as (T2 & _).
    eapply Qcle_trans; [exact T2|]. apply Qcplus_le_compat; [apply Qcle_refl|]. apply (IHy p' p2). eapply tidy_tl, T.
  - change ((p :: p2 :: l) ++ y) with (p :: (p2 :: l) ++ y). rewrite (width_cons k p (p2 :: l)), (width_cons k p ((p2 :: l) ++ y)) by discriminate.
    apply Qcplus_le_compat; [apply Qcle_refl|]. apply (IH y c true); [eapply tidy_tl, T|discriminate].
Qed.
Lemma tidy_first p l c k k' : tidy (p :: l ++ c) -> l <> [] -> line_width k l <= line_width k' (p :: l).
Proof.
  intros T NE. destruct l as [|p' l]; [congruence|]. destruct (T [] p p' (l ++ c) eq_refl k' k) as (_ & T3 & T4).
  rewrite (width_cons k' p) by discriminate. destruct l as [|p2 l].
  - rewrite !width_one. exact T3.
  - rewrite (width_cons k p' (p2 :: l)), (width_cons true p' (p2 :: l)) by discriminate. rewrite Qcplus_assoc. apply Qcplus_le_compat; [exact T4|apply Qcle_refl].
Qed.
Lemma tidy_narrower pcs : tidy pcs -> parts_narrower pcs.
Proof.
  intros T a x l y c -> NE. apply tidy_app in T. split.
  - intros NX k k'. eapply Qcle_trans; [apply (tidy_prefix l y c k); [eapply tidy_app, T|exact NE]|].
    assert (NL : l ++ y <> []) by (destruct l; [congruence|discriminate]).
    rewrite (app_assoc l) in T. revert T NL. generalize (l ++ y). clear - NX ENV. intros m T NL.
    revert k'. induction x as [|p x IH]; intros k'; [congruence|]. destruct x as [|p2 x].
    + apply (tidy_first p m c); auto.
    + eapply Qcle_trans; [apply (IH ltac:(discriminate) (tidy_tl _ _ T) true)|]. cbn [app].
      apply (tidy_first p (p2 :: x ++ m) c); [|discriminate]. cbn [app] in *. rewrite <- app_assoc. exact T.
  - intros k. apply (tidy_prefix l y c k); [eapply tidy_app, T|exact NE].
Qed.
End Greedy.
