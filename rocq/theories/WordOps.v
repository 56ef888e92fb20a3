(** * WordOps: what the operations on words do to text, style and size.
    For every arithmetic. *)
From Verif Require Import Base Num Fonts State TextSpec StateProofs Words WordsSpec WordProofs.
Open Scope nat_scope.

Section Ops.
Context {NUM : Num} {ENV : Env NUM}.

Lemma rmap_inv {A B} (f : A -> B) r y : rmap f r = Ok y -> exists x, r = Ok x /\ y = f x.
Proof. destruct r; cbn; [|discriminate]. intros H. apply Ok_inj in H. eauto. Qed.

(** the same text, in the same styles *)
Definition alike (w w' : wordlike) : Prop :=
  measured w' = measured w /\ wl_state w' = wl_state w /\ (forall s, coh w s -> coh w' s)
  /\ List.length (wl_boxes w') = List.length (wl_boxes w).
Lemma alike_refl w : alike w w. Proof. repeat split; auto. Qed.
Lemma alike_trans a b c : alike a b -> alike b c -> alike a c.
Proof. intros (A1 & A2 & A3 & A4) (B1 & B2 & B3 & B4). unfold alike. split; [congruence|split; [congruence|split; [auto|congruence]]]. Qed.
Definition alike_box (b b' : box) : Prop :=
  measured_box b' = measured_box b /\ box_state b' = box_state b /\ (forall s, coh_box b s -> coh_box b' s).
Lemma coh_boxes_app a b s : coh_boxes (a ++ b) s <-> coh_boxes a s /\ coh_boxes b (end_boxes a s).
Proof. revert s; induction a as [|x a IH]; intros s; cbn; [tauto|]. rewrite IH. tauto. Qed.
Lemma end_boxes_app a b s : end_boxes (a ++ b) s = end_boxes b (end_boxes a s).
Proof. revert s; induction a as [|x a IH]; intros s; cbn; auto. Qed.
Lemma coh_segs_app a b s : coh_segs (a ++ b) s <-> coh_segs a s /\ coh_segs b (end_segs a s).
Proof.
  revert s; induction a as [|[x c] a IH]; intros s; cbn; [tauto|]. rewrite IH. unfold end_segs. cbn. tauto.
Qed.
Lemma end_segs_app a b s : end_segs (a ++ b) s = end_segs b (end_segs a s).
Proof. unfold end_segs. rewrite map_app, apply_all_app. reflexivity. Qed.

Lemma slug_without_alike s : sl_txt (slug_without_init_kern s) = sl_txt s
  /\ sl_state (slug_without_init_kern s) = sl_state s.
Proof. unfold slug_without_init_kern. destruct (sl_kern s) as [|[[|i] k] r]; auto. Qed.
Lemma box_without_alike b : alike_box b (box_without_init_kern b).
Proof.
  destruct b as [s|[|[s c] l] st]; unfold alike_box; cbn.
  - destruct (slug_without_alike s) as [H1 H2]. unfold measured_slug. rewrite H1, H2. auto.
  - auto.
  - destruct (slug_without_alike s) as [H1 H2]. unfold measured_slug. rewrite H1, H2.
    split; [reflexivity|]. split; [reflexivity|]. intros s0 (_ & H & ->).
    split; [congruence|]. split; [exact H|reflexivity].
Qed.
Lemma slug_indent_alike s x s' : slug_indent s x = Ok s' -> sl_txt s' = sl_txt s /\ sl_state s' = sl_state s.
Proof.
  unfold slug_indent. destruct (ntruthy x); [|intros E; apply Ok_inj in E; subst; auto].
  destruct (slug_has_init_kern s); [discriminate|]. intros E. apply bind_ok in E as (q & _ & E).
  apply Ok_inj in E. subst. auto.
Qed.
Lemma box_indent_alike b x b' : box_indent b x = Ok b' -> alike_box b b'.
Proof.
  assert (R : alike_box b b) by (repeat split; auto).
  destruct b as [s|l st]; cbn; intros E.
  - apply rmap_inv in E as (s' & E & ->). apply slug_indent_alike in E as [H1 H2].
    unfold alike_box; cbn. unfold measured_slug. rewrite H1, H2. auto.
  - destruct (ntruthy x); [|apply Ok_inj in E; subst; exact R].
    destruct l as [|[s c] l]; [apply Ok_inj in E; subst; exact R|].
    apply rmap_inv in E as (s' & E & ->). apply slug_indent_alike in E as [H1 H2].
    unfold alike_box; cbn. unfold measured_slug. rewrite H1, H2.
    split; [reflexivity|]. split; [reflexivity|]. intros s0 (_ & H & ->).
    split; [congruence|]. split; [exact H|reflexivity].
Qed.
Lemma word_alike_head b b' r t st : alike_box b b' ->
  alike (WWord (mkWord (b :: r) t st)) (WWord (mkWord (b' :: r) t st)).
Proof.
  intros (H1 & H2 & H3). unfold alike; cbn. unfold measured_word, coh_word; cbn. rewrite H1, H2.
  split; [reflexivity|]. split; [reflexivity|]. split; [|reflexivity]. intros s [[A B] C]. auto.
Qed.
Lemma word_alike_tail bs t t' st : (t = None <-> t' = None) ->
  alike (WWord (mkWord bs t st)) (WWord (mkWord bs t' st)).
Proof.
  intros H. unfold alike; cbn. unfold measured_word; cbn.
  split; [|split; [reflexivity|split; [auto|reflexivity]]].
  f_equal. destruct t, t'; auto; destruct H as [H1 H2];
    [discriminate (H2 eq_refl)|discriminate (H1 eq_refl)].
Qed.
Lemma word_eta w : w = mkWord (w_boxes w) (w_tail w) (w_state w).
Proof. destruct w; reflexivity. Qed.
Lemma word_without_alike w : alike (WWord w) (WWord (word_without_init_kern w)).
Proof.
  unfold word_without_init_kern. destruct w as [[|b r] t st]; cbn.
  - destruct t as [t|]; [|apply alike_refl]. destruct (ntruthy _); [|apply alike_refl].
    apply word_alike_tail. split; discriminate.
  - destruct (box_has_init_kern b); [|apply alike_refl]. apply word_alike_head, box_without_alike.
Qed.
Lemma alike_cmd w w' c : alike w w' -> alike (WCmd w c) (WCmd w' c).
Proof. intros (H1 & H2 & H3 & H4). unfold alike; cbn. rewrite H2. auto. Qed.
Lemma alike_with_cmd w w' c : alike w w' -> alike (WCmd w c) (with_cmd w' c).
Proof. intros (H1 & H2 & H3 & H4). unfold alike; cbn.
  destruct c; cbn; rewrite ?H2; auto. Qed.
Lemma with_cmd_alike w c : alike (WCmd w c) (with_cmd w c).
Proof. apply alike_with_cmd, alike_refl. Qed.
Lemma alike_box_wl b b' : alike_box b b' -> alike (WBox b) (WBox b').
Proof. intros (H1 & H2 & H3). repeat split; auto. Qed.
Lemma wl_without_alike w : alike w (wl_without_init_kern w).
Proof.
  induction w; cbn; auto using word_without_alike, alike_cmd, alike_box_wl, box_without_alike.
Qed.
Lemma word_indent_alike w x w' : word_indent w x = Ok w' -> alike (WWord w) (WWord w').
Proof.
  unfold word_indent. destruct (ntruthy x); [|intros E; apply Ok_inj in E; subst; apply alike_refl].
  destruct w as [[|b r] t st]; cbn.
  - destruct t as [t|]; [|discriminate]. intros E. apply rmap_inv in E as (t' & _ & ->).
    apply word_alike_tail. split; discriminate.
  - intros E. apply rmap_inv in E as (b' & E & ->). apply word_alike_head. eapply box_indent_alike; eauto.
Qed.
Lemma wl_indent_alike w x : forall w', wl_indent w x = Ok w' -> alike w w'.
Proof.
  induction w as [b|w|w IH c]; intros w' E; cbn in E.
  - apply rmap_inv in E as (b' & E & ->). eapply alike_box_wl, box_indent_alike; eauto.
  - apply rmap_inv in E as (b' & E & ->). eapply word_indent_alike; eauto.
  - destruct (ntruthy x); [|apply Ok_inj in E; subst; apply alike_refl].
    apply rmap_inv in E as (b' & E & ->). apply alike_cmd; auto.
Qed.
Lemma wl_extend_alike w x : forall w', wl_extend_tail w x = Ok w' -> alike w w'.
Proof.
  induction w as [b|w|w IH c]; intros w' E; cbn in E.
  - apply Ok_inj in E; subst; apply alike_refl.
  - apply rmap_inv in E as (b' & E & ->). unfold word_extend_tail in E.
    destruct w as [bs [t|] st]; cbn in E; [|apply Ok_inj in E; subst; apply alike_refl].
    destruct (ntruthy x); [|apply Ok_inj in E; subst; apply alike_refl].
    apply rmap_inv in E as (t' & _ & ->). apply word_alike_tail. split; discriminate.
  - destruct (wl_tail w); [|apply Ok_inj in E; subst; apply alike_refl].
    destruct (ntruthy x); [|apply Ok_inj in E; subst; apply alike_refl].
    apply rmap_inv in E as (b' & E & ->). apply alike_cmd; auto.
Qed.
Lemma wl_stretch_alike w x : forall w', wl_stretch_tail w x = Ok w' -> alike w w'.
Proof.
  induction w as [b|w|w IH c]; intros w' E; cbn in E.
  - apply Ok_inj in E; subst; apply alike_refl.
  - apply rmap_inv in E as (b' & E & ->). unfold word_stretch_tail in E.
    destruct w as [bs [t|] st]; cbn in E; [|apply Ok_inj in E; subst; apply alike_refl].
    destruct (neqb x n1); [apply Ok_inj in E; subst; apply alike_refl|].
    apply rmap_inv in E as (t' & _ & ->). apply word_alike_tail. split; discriminate.
  - destruct (wl_tail w); [|apply Ok_inj in E; subst; apply alike_refl].
    apply rmap_inv in E as (b' & E & ->). apply alike_cmd; auto.
Qed.

(** ** hyphens *)
Lemma box_with_hyphen_measured b : measured_box (box_with_hyphen b) = measured_box b ++ [(45%N, box_state b)].
Proof.
  destruct b as [s|l st]; cbn.
  - unfold measured_slug. cbn. apply map_app.
  - unfold measured_segs. rewrite flat_map_app. cbn. reflexivity.
Qed.
Lemma box_with_hyphen_state b : box_state (box_with_hyphen b) = box_state b.
Proof. destruct b; reflexivity. Qed.
Lemma box_with_hyphen_coh b s : coh_box b s -> coh_box (box_with_hyphen b) s.
Proof.
  destruct b as [x|l st]; cbn; auto. intros (H1 & H2 & H3). split; [destruct l; cbn; congruence|]. split.
  - apply coh_segs_app. split; auto. cbn. auto.
  - rewrite end_segs_app. exact H3.
Qed.

(** [a] is a first part of [w] with a hyphen added, [b] the rest *)
Definition hyphenated (w a b : wordlike) : Prop :=
  (exists p, measured a = p ++ [(45%N, wl_state a)] /\ measured w = p ++ measured b)
  /\ wl_state b = wl_state w
  /\ (forall s, coh w s -> coh a s /\ coh b (wl_state a))
  /\ List.length (wl_boxes b) < List.length (wl_boxes w)
  /\ wl_tail a = None.
Lemma hyph_loop_parts b rest space fit st nb r f0 :
  hyph_loop b rest space f0 = Ok (fit, st, nb, r) ->
  exists pre x, b :: rest = pre ++ x :: nb :: r /\ fit = f0 ++ pre ++ [box_with_hyphen x] /\ st = box_state x.
Proof.
  revert b space f0. induction rest as [|nb' rest IH]; intros b space f0; cbn [hyph_loop]; [discriminate|].
  cbn zeta. destruct (nltb _ _); intros E.
  - apply Ok_inj in E. injection E as <- <- <- <-. exists [], b. auto.
  - apply IH in E as (pre & x & E1 & E2 & E3). exists (b :: pre), x.
    rewrite E1. split; [reflexivity|]. split; [rewrite E2, <- app_assoc; reflexivity|exact E3].
Qed.
Lemma end_boxes_last pre x s : end_boxes (pre ++ [x]) s = box_state x.
Proof. rewrite end_boxes_app. reflexivity. Qed.
Lemma hyphenated_boxes pre x nb r t st :
  hyphenated (WWord (mkWord (pre ++ x :: nb :: r) t st))
             (WWord (mkWord (pre ++ [box_with_hyphen x]) None (box_state x)))
             (WWord (mkWord (box_without_init_kern nb :: r) t st)).
Proof.
  destruct (box_without_alike nb) as (A1 & A2 & A3).
  split; [|split; [reflexivity|split; [|split; [|reflexivity]]]].
  - exists (flat_map measured_box (pre ++ [x])). cbn. unfold measured_word; cbn.
    rewrite !flat_map_app. cbn. rewrite box_with_hyphen_measured, A1, !app_nil_r.
    rewrite <- !app_assoc. split; reflexivity.
  - intros s [H1 H2]. cbn in *. apply coh_boxes_app in H1 as [H1 H3]. cbn in H3.
    destruct H3 as (H3 & H4 & H5). rewrite end_boxes_app in H2. cbn in H2. split; split; cbn.
    + apply coh_boxes_app. split; auto. cbn. split; auto. apply box_with_hyphen_coh, H3.
    + rewrite end_boxes_last, box_with_hyphen_state. reflexivity.
    + rewrite A2. split; auto.
    + rewrite A2. exact H2.
  - cbn. rewrite app_length. cbn. lia.
Qed.
Lemma word_hyphenate_cases w space a b : word_hyphenate w space = Ok (a, b) ->
  match a with
  | None => b = word_without_init_kern w
  | Some a => hyphenated (WWord w) (WWord a) (WWord b)
  end.
Proof.
  unfold word_hyphenate. destruct w as [bs t st]; cbn. destruct bs as [|b0 rest].
  - intros E. apply Ok_inj in E. injection E as <- <-. reflexivity.
  - destruct (nltb _ _); [intros E; apply Ok_inj in E; injection E as <- <-; reflexivity|].
    intros E. apply bind_ok in E as ([[[fit st'] nb] r] & HL & E). apply Ok_inj in E. injection E as <- <-.
    apply hyph_loop_parts in HL as (pre & x & E1 & -> & ->). rewrite E1. cbn [app].
    apply hyphenated_boxes.
Qed.
Lemma hyphenated_cmd w a b c : hyphenated w a b -> hyphenated (WCmd w c) a (with_cmd b c).
Proof.
  intros ((p & H1 & H2) & H3 & H4 & H5 & H6). split; [|split; [|split; [|split]]].
  - exists p. rewrite measured_with_cmd. auto.
  - rewrite state_with_cmd. cbn. congruence.
  - intros s C. cbn in C. apply H4 in C as [C1 C2]. split; auto. apply coh_with_cmd, C2.
  - destruct c; exact H5.
  - exact H6.
Qed.
Lemma wl_hyphenate_cases w space : forall a b, wl_hyphenate w space = Ok (a, b) ->
  match a with
  | None => alike w b
  | Some a => hyphenated w a b
  end.
Proof.
  induction w as [b0|w|w IH c]; intros a b E; cbn in E.
  - apply Ok_inj in E. injection E as <- <-. apply alike_refl.
  - apply rmap_inv in E as ([x y] & E & E2). injection E2 as -> ->. apply word_hyphenate_cases in E.
    destruct x; cbn; auto. subst. apply word_without_alike.
  - apply rmap_inv in E as ([x y] & E & E2). injection E2 as -> ->. apply IH in E.
    destruct x; cbn; auto using hyphenated_cmd, alike_with_cmd.
Qed.
Lemma wl_minimal_cases w : forall a b, wl_minimal w = (a, b) ->
  match b with
  | None => alike w a
  | Some b => hyphenated w a b
  end.
Proof.
  induction w as [b0|w|w IH c]; intros a b E; cbn in E.
  - injection E as <- <-. apply alike_refl.
  - unfold word_minimal in E. destruct w as [[|b1 [|b2 r]] t st]; cbn in E;
      injection E as <- <-; try apply alike_refl.
    cbn. apply (hyphenated_boxes [] b1 b2 r t st).
  - destruct (wl_minimal w) as [x y]. specialize (IH x y eq_refl). destruct y as [y|]; injection E as <- <-.
    + apply hyphenated_cmd, IH.
    + apply alike_with_cmd, IH.
Qed.

(** ** pruning *)
Lemma wl_pruned_measured w :
  (wl_tail w = None -> wl_pruned w = w)
  /\ (forall t, wl_tail w = Some t -> exists s, measured w = measured (wl_pruned w) ++ [(32%N, s)])
  /\ wl_state (wl_pruned w) = wl_state w
  /\ (forall s, coh w s -> coh (wl_pruned w) s)
  /\ wl_boxes (wl_pruned w) = wl_boxes w.
Proof.
  induction w as [b|w|w IH c]; cbn.
  - split; [auto|]. split; [discriminate|]. auto.
  - unfold word_pruned. destruct w as [bs t st]; cbn. destruct t as [t|]; cbn.
    + split; [discriminate|]. split; [|auto]. intros t' _. exists st. unfold measured_word; cbn.
      rewrite app_nil_r. reflexivity.
    + split; [reflexivity|]. split; [discriminate|]. auto.
  - destruct IH as (H1 & H2 & H3 & H4 & H5). split; [intros T; rewrite H1; auto|]. split; [exact H2|].
    split; [congruence|]. auto.
Qed.
Lemma indent_first_alike ws x ws' : indent_first ws x = Ok ws' -> Forall2 alike ws ws'.
Proof.
  destruct ws as [|w r]; cbn; intros E.
  - apply Ok_inj in E. subst. constructor.
  - apply bind_ok in E as (w' & E1 & E). apply Ok_inj in E. subst. constructor.
    + eapply wl_indent_alike; eauto.
    + induction r; constructor; auto using alike_refl.
Qed.
Lemma alike_all ws ws' : Forall2 alike ws ws' ->
  measured_all ws' = measured_all ws /\ (forall s, end_all ws' s = end_all ws s)
  /\ (forall s, coh_all ws s -> coh_all ws' s).
Proof.
  induction 1 as [|w w' l l' (A1 & A2 & A3 & _) _ (B1 & B2 & B3)]; auto. cbn. fold (measured_all l) (measured_all l').
  rewrite A1, B1, A2. split; [reflexivity|]. split.
  - intros s. rewrite !end_all_cons, A2. apply B2.
  - intros s [C1 C2]. auto.
Qed.
End Ops.
