(** * WordWidth: recorded widths are displayed widths (C31); hyphenation (C32, C33) *)
From Coq Require Import QArith Qcanon Sorted.
From Verif Require Import Base Gfmt FontSpec FontProofs Num Fonts State TextSpec StateProofs Words WordsSpec WordProofs Parse Render RenderSpec RenderProofs.
Open Scope nat_scope.

Section Width.
Context {ENV : Env QcNum}.
Open Scope Qc_scope.
Ltac k1000 := change (@n1000 QcNum) with thousand; change (Q2Qc (inject_Z 1000)) with thousand.

Definition segs_ok (l : list (slug * command)) : Prop := Forall (fun p => slug_ok (fst p)) l.
Definition box_ok (b : box) : Prop :=
  match b with BSlug s => slug_ok s | BMixed l _ => segs_ok l end.
Definition tail_ok (t : option tspace) (st : state) : Prop :=
  match t with
  | None => True
  | Some t => ts_width t = charwidth (st_font st) 32%N / thousand * st_size st /\ ts_size t = st_size st
  end.
Definition word_ok (w : word) : Prop := Forall box_ok (w_boxes w) /\ tail_ok (w_tail w) (w_state w).
Fixpoint wl_ok (w : wordlike) : Prop :=
  match w with WBox b => box_ok b | WWord w => word_ok w | WCmd w _ => wl_ok w end.

Lemma segs_width l : segs_ok l ->
  @nsum QcNum (map (fun p => sl_width (fst p)) l) = fold_right (fun p a => slug_advance (fst p) + a) 0 l.
Proof.
  induction 1 as [|p l Hp _ IH]; cbn [map fold_right].
  - apply nsum_nil_Qc.
  - rewrite nsum_cons_Qc, IH. destruct Hp as (_ & _ & <-). reflexivity.
Qed.
Lemma box_width_ok b : box_ok b -> box_width b = box_advance b.
Proof.
  destruct b as [s|l st]; cbn [box_ok box_width box_advance].
  - intros (_ & _ & H). exact H.
  - apply segs_width.
Qed.
Lemma boxes_width_ok l : Forall box_ok l -> @nsum QcNum (map box_width l) = boxes_advance l.
Proof.
  induction 1 as [|b l Hb _ IH]; cbn [map boxes_advance fold_right].
  - apply nsum_nil_Qc.
  - rewrite nsum_cons_Qc, IH, box_width_ok by exact Hb. reflexivity.
Qed.
Lemma tail_width_ok t st : tail_ok (Some t) st -> tspace_width t = space_advance t st.
Proof.
  intros [H1 H2]. unfold tspace_width, space_advance. rewrite H1, H2.
  destruct (ntruthy (ts_kern t)) eqn:T; cbn.
  - k1000. rewrite ?Qcdiv_def. ring.
  - apply ntruthy_false in T. rewrite T. k1000. rewrite ?Qcdiv_def. ring.
Qed.
Lemma word_width_ok w : word_ok w -> word_width w = word_advance w.
Proof.
  intros [H1 H2]. unfold word_width, word_advance, word_pruned_width. rewrite boxes_width_ok by exact H1.
  destruct (w_tail w) as [t|]; [rewrite (tail_width_ok _ _ H2); reflexivity|].
  reflexivity.
Qed.
Lemma wl_width_ok w : wl_ok w -> wl_width w = wl_advance w.
Proof.
  induction w; cbn [wl_ok wl_width wl_advance]; auto using box_width_ok, word_width_ok.
Qed.
Lemma word_pruned_ok w : word_ok w -> word_ok (word_pruned w).
Proof. intros [H1 H2]. unfold word_pruned. destruct (w_tail w) eqn:E; split; cbn; auto. rewrite E. exact I. Qed.
Lemma wl_pruned_ok w : wl_ok w -> wl_ok (wl_pruned w).
Proof. induction w; cbn; auto using word_pruned_ok. Qed.
Lemma word_pruned_width_ok w : word_ok w -> word_pruned_width w = word_advance (word_pruned w).
Proof.
  intros H. unfold word_pruned_width, word_advance, word_pruned. destruct H as [H1 H2].
  rewrite boxes_width_ok by exact H1. destruct (w_tail w) eqn:E; cbn; rewrite ?E; symmetry; apply Qcplus_0_r.
Qed.
Lemma wl_pruned_width_ok w : wl_ok w -> wl_pruned_width w = wl_advance (wl_pruned w).
Proof.
  induction w; cbn [wl_ok wl_pruned_width wl_pruned wl_advance]; auto using box_width_ok, word_pruned_width_ok.
Qed.
Lemma word_prunable_ok w : word_ok w -> word_width w = word_pruned_width w + word_prunable w.
Proof. intros _. reflexivity. Qed.
Lemma wl_width_split w : wl_width w = wl_pruned_width w + wl_prunable w.
Proof.
  induction w; cbn; auto. change (@n0 QcNum) with (Q2Qc 0). symmetry. apply Qcplus_0_r.
Qed.

(** ** operations *)
Lemma box_with_hyphen_ok b : box_ok b -> box_ok (box_with_hyphen b).
Proof.
  destruct b as [s|l st]; cbn.
  - apply slug_with_hyphen_ok.
  - intros H. apply Forall_app. split; [exact H|]. constructor; [|constructor].
    apply slug_new_ok. discriminate.
Qed.
Lemma box_without_init_kern_ok b : box_ok b -> box_ok (box_without_init_kern b).
Proof.
  destruct b as [s|[|[s c] l] st]; cbn; auto.
  - apply slug_without_init_kern_ok.
  - intros H. inversion H; subst. constructor; auto. apply slug_without_init_kern_ok. assumption.
Qed.
Lemma box_indent_ok b (x : Qc) b' : box_ok b -> box_indent b x = Ok b' ->
  box_ok b' /\ (match b with BMixed [] _ => x = 0 | _ => True end -> box_width b' = box_width b + x).
Proof.
  destruct b as [s|l st]; cbn.
  - intros H E. destruct (slug_indent s x) as [s'|] eqn:E1; cbn in E; [|discriminate].
    apply Ok_inj in E. subst b'. apply slug_indent_ok in E1; auto. destruct E1; auto.
  - intros H E. destruct (@ntruthy QcNum x) eqn:T.
    + destruct l as [|[s c] l].
      * apply Ok_inj in E. subst. split; auto. intros ->. symmetry. apply Qcplus_0_r.
      * inversion H; subst. destruct (slug_indent s x) as [s'|] eqn:E1; cbn in E; [|discriminate].
        apply Ok_inj in E. subst b'. apply slug_indent_ok in E1; auto. destruct E1 as [E1 E2].
        split; [constructor; auto|]. intros _. cbn [box_width map]. rewrite !nsum_cons_Qc. cbn [fst].
        rewrite E2. cbn. ring.
    + apply Ok_inj in E. subst. split; auto. apply ntruthy_false in T. intros _. rewrite T.
      symmetry. apply Qcplus_0_r.
Qed.
Lemma tspace_stretch_ok t (x : Qc) st t' : tail_ok (Some t) st -> tspace_stretch t x st = Ok t' ->
  tail_ok (Some t') st /\ tspace_width t' = tspace_width t + x.
Proof.
  intros [H1 H2] E. unfold tspace_stretch in E. apply bind_ok in E as (q & Q & E).
  apply pdiv_ok in Q as [Z ->]. apply Ok_inj in E. subst t'. split; [split; auto|].
  unfold tspace_width. cbn. rewrite H1, H2. k1000. rewrite ?Qcdiv_def.
  assert (T1 : / thousand * thousand = 1) by (rewrite Qcmult_comm; apply Qcmult_inv_r, thousand_neq).
  assert (T2 : / st_size st * st_size st = 1) by (rewrite Qcmult_comm; apply Qcmult_inv_r, Z).
  set (a := @charwidth QcNum ENV (st_font st) 32%N * / thousand * @st_size QcNum st).
  transitivity (a + @ts_kern QcNum t * st_size st * / thousand
     + x * (/ st_size st * st_size st) * (/ thousand * thousand)).
  - ring.
  - rewrite T1, T2. ring.
Qed.
Lemma word_without_init_kern_ok w : word_ok w -> word_ok (word_without_init_kern w).
Proof.
  intros [H1 H2]. unfold word_without_init_kern. destruct (w_boxes w) as [|b r] eqn:E.
  - destruct (w_tail w) as [t|] eqn:T; [|split; [rewrite E|rewrite T]; auto].
    destruct (ntruthy (ts_kern t)); [|split; [rewrite E|rewrite T]; auto].
    split; cbn; auto.
  - destruct (box_has_init_kern b); [|split; [rewrite E|]; auto].
    inversion H1; subst. split; cbn; auto. constructor; auto using box_without_init_kern_ok.
Qed.
Lemma hyph_loop_split (b : box) (rest : list box) (space : @num QcNum) fit st nb r f0 :
  hyph_loop b rest space f0 = Ok (fit, st, nb, r) ->
  exists pre x, b :: rest = pre ++ x :: nb :: r /\ fit = f0 ++ pre ++ [box_with_hyphen x] /\ st = box_state x
   /\ space - @nsum QcNum (map box_width (pre ++ [x])) < box_width (box_with_hyphen nb)
   /\ (pre <> [] -> box_width (box_with_hyphen x) <= space - @nsum QcNum (map box_width pre)).
Proof.
  revert b space f0. induction rest as [|nb' rest IH]; intros b space f0; cbn [hyph_loop]; [discriminate|].
  cbn zeta. destruct (nltb _ _) eqn:C; intros E.
  - apply Ok_inj in E. injection E as <- <- <- <-. exists [], b. split; [reflexivity|]. split; [reflexivity|].
    split; [reflexivity|]. split; [|congruence]. cbn [app map]. rewrite nsum_cons_Qc, nsum_nil_Qc, Qcplus_0_r.
    apply Qcltb_lt in C. exact C.
  - apply IH in E as (pre & x & E1 & E2 & E3 & E4 & E5). exists (b :: pre), x.
    rewrite E1. split; [reflexivity|]. split; [rewrite E2, <- app_assoc; reflexivity|]. split; [exact E3|].
    cbn [app map]. rewrite !nsum_cons_Qc.
    assert (HS : forall y, (@nsub QcNum space (box_width b)) - y = space - (box_width b + y)).
    { intros y. cbn. ring. }
    rewrite HS in E4. split; [exact E4|]. intros _.
    destruct pre as [|b2 pre].
    + injection E1 as E1 _. subst x. cbn [map]. rewrite nsum_nil_Qc, Qcplus_0_r.
      apply Qcltb_nlt in C. exact C.
    + rewrite HS in E5. apply E5. discriminate.
Qed.
Lemma word_hyphenate_ok w (sp : Qc) a b : word_ok w -> word_hyphenate w sp = Ok (a, b) ->
  word_ok b /\ (forall x, a = Some x -> word_ok x).
Proof.
  intros [H1 H2] E. unfold word_hyphenate in E. destruct (w_boxes w) as [|b0 rest] eqn:B.
  - apply Ok_inj in E. injection E as <- <-. split; [|congruence].
    apply word_without_init_kern_ok. split; [rewrite B|]; auto.
  - destruct (nltb _ _); [apply Ok_inj in E; injection E as <- <-; split; [|congruence];
      apply word_without_init_kern_ok; split; [rewrite B|]; auto|].
    apply bind_ok in E as ([[[fit st] nb] r] & HL & E). apply Ok_inj in E. injection E as <- <-.
    apply hyph_loop_split in HL as (pre & x & E1 & -> & -> & _). rewrite E1 in H1.
    apply Forall_app in H1 as [P1 P2]. inversion P2 as [|? ? Px P3]; subst. inversion P3; subst.
    split.
    + split; cbn; auto. constructor; auto using box_without_init_kern_ok.
    + intros y Y. injection Y as <-. split; cbn; auto. apply Forall_app. split; auto.
      constructor; auto using box_with_hyphen_ok.
Qed.
Lemma with_cmd_ok w c : wl_ok w -> wl_ok (with_cmd w c).
Proof. destruct c; auto. Qed.
Lemma rmap_ok {A B} (f : A -> B) r y : rmap f r = Ok y -> exists x, r = Ok x /\ y = f x.
Proof. destruct r; cbn; [|discriminate]. intros H. apply Ok_inj in H. eauto. Qed.
Lemma wl_hyphenate_ok w (sp : Qc) : forall a b, wl_ok w -> wl_hyphenate w sp = Ok (a, b) ->
  wl_ok b /\ (forall x, a = Some x -> wl_ok x).
Proof.
  induction w as [b0|w|w IH c]; intros a b H E; cbn [wl_hyphenate] in E.
  - apply Ok_inj in E. injection E as <- <-. split; auto. congruence.
  - apply rmap_ok in E as ([x y] & E1 & E2). injection E2 as -> ->. apply word_hyphenate_ok in E1; auto.
    destruct E1 as [E1 E2]. split; auto. intros z. cbn [fst]. destruct x; [|discriminate].
    intros Z. injection Z as <-. apply E2. reflexivity.
  - apply rmap_ok in E as ([x y] & E1 & E2). injection E2 as -> ->. apply IH in E1; auto.
    destruct E1 as [E1 E2]. cbn. split; auto. apply with_cmd_ok, E1.
Qed.
Lemma word_minimal_ok w a b : word_ok w -> word_minimal w = (a, b) ->
  word_ok a /\ (forall x, b = Some x -> word_ok x).
Proof.
  intros H E. unfold word_minimal in E. destruct (w_boxes w) as [|b1 [|b2 r]] eqn:B;
    injection E as <- <-; (split; [auto|try congruence]).
  - destruct H as [H _]. rewrite B in H. inversion H; subst. split; cbn; auto using box_with_hyphen_ok.
  - intros x X. injection X as <-. destruct H as [H H2]. rewrite B in H. inversion H; subst.
    inversion H4; subst. split; cbn; auto. constructor; auto using box_without_init_kern_ok.
Qed.
Lemma wl_minimal_ok w : forall a b, wl_ok w -> wl_minimal w = (a, b) ->
  wl_ok a /\ (forall x, b = Some x -> wl_ok x).
Proof.
  induction w as [b0|w|w IH c]; intros a b H E; cbn [wl_minimal] in E.
  - injection E as <- <-. split; auto. congruence.
  - destruct (word_minimal w) as [x y] eqn:M. injection E as <- <-. apply word_minimal_ok in M; auto.
    destruct M as [M1 M2]. split; auto. intros z. destruct y; [|discriminate].
    intros Z. injection Z as <-. apply M2. reflexivity.
  - destruct (wl_minimal w) as [x y] eqn:M. destruct (IH x y H eq_refl) as [M1 M2].
    destruct y as [y|]; injection E as <- <-; split; auto using with_cmd_ok.
    + intros z Z. injection Z as <-. apply with_cmd_ok, M2. reflexivity.
Qed.
Lemma wl_without_init_kern_ok w : wl_ok w -> wl_ok (wl_without_init_kern w).
Proof. induction w; cbn; auto using box_without_init_kern_ok, word_without_init_kern_ok. Qed.

Lemma word_indent_ok w (x : Qc) w' : word_ok w -> word_indent w x = Ok w' -> word_ok w'.
Proof.
  intros H E. unfold word_indent in E. destruct (ntruthy _); [|apply Ok_inj in E; subst; exact H].
  destruct H as [H1 H2]. destruct (w_boxes w) as [|b r].
  - destruct (w_tail w) as [t|] eqn:T; [|discriminate].
    apply rmap_ok in E as (t' & E1 & ->). apply tspace_stretch_ok in E1; auto. split; cbn; auto. apply E1.
  - apply rmap_ok in E as (b' & E1 & ->). inversion H1; subst. apply box_indent_ok in E1; auto.
    split; cbn; auto. constructor; tauto.
Qed.
Lemma wl_indent_ok w (x : Qc) : forall w', wl_ok w -> wl_indent w x = Ok w' -> wl_ok w'.
Proof.
  induction w as [b0|w|w IH c]; intros w' H E; cbn [wl_indent] in E.
  - apply rmap_ok in E as (b' & E1 & ->). apply box_indent_ok in E1; auto. apply E1.
  - apply rmap_ok in E as (b' & E1 & ->). apply word_indent_ok in E1; auto.
  - destruct (ntruthy _); [|apply Ok_inj in E; subst; exact H].
    apply rmap_ok in E as (b' & E1 & ->). cbn. eauto.
Qed.
Lemma word_extend_tail_ok w (x : Qc) w' : word_ok w -> word_extend_tail w x = Ok w' ->
  word_ok w' /\ (w_tail w <> None -> word_width w' = word_width w + x)
  /\ word_pruned_width w' = word_pruned_width w.
Proof.
  intros H E. unfold word_extend_tail in E. destruct (w_tail w) as [t|] eqn:T.
  2:{ apply Ok_inj in E. subst. split; auto. split; [congruence|reflexivity]. }
  destruct (@ntruthy QcNum x) eqn:X.
  - apply rmap_ok in E as (t' & E1 & ->). destruct H as [H1 H2]. rewrite T in H2.
    apply tspace_stretch_ok in E1; auto. destruct E1 as [E1 E2]. split; [split; cbn; auto|].
    split; [|reflexivity]. intros _. unfold word_width. cbn [w_tail w_boxes word_pruned_width]. rewrite T, E2.
    unfold word_pruned_width. cbn. ring.
  - apply Ok_inj in E. subst. split; auto. apply ntruthy_false in X. subst x.
    split; [|reflexivity]. intros _. symmetry. apply Qcplus_0_r.
Qed.
Lemma wl_extend_tail_ok w (x : Qc) : forall w', wl_ok w -> wl_extend_tail w x = Ok w' ->
  wl_ok w' /\ (wl_tail w <> None -> wl_width w' = wl_width w + x)
  /\ wl_pruned_width w' = wl_pruned_width w.
Proof.
  induction w as [b0|w|w IH c]; intros w' H E; cbn [wl_extend_tail] in E.
  - apply Ok_inj in E. subst. split; auto. split; [cbn; congruence|reflexivity].
  - apply rmap_ok in E as (b' & E1 & ->). apply word_extend_tail_ok in E1; auto.
  - destruct (wl_tail w) eqn:T.
    + destruct (@ntruthy QcNum x) eqn:X.
      * apply rmap_ok in E as (b' & E1 & ->). cbn. rewrite T in *. eauto.
      * apply Ok_inj in E. subst. split; auto. apply ntruthy_false in X. subst x.
        split; [|reflexivity]. intros _. symmetry. apply Qcplus_0_r.
    + apply Ok_inj in E. subst. split; auto. split; [cbn; congruence|reflexivity].
Qed.
Lemma word_stretch_tail_ok w (x : Qc) w' : word_ok w -> word_stretch_tail w x = Ok w' ->
  word_ok w' /\ (x <> 1 -> forall t, w_tail w = Some t -> word_width w' = word_width w + x * ts_width t)
  /\ word_pruned_width w' = word_pruned_width w.
Proof.
  intros H E. unfold word_stretch_tail in E. destruct (w_tail w) as [t|] eqn:T.
  2:{ apply Ok_inj in E. subst. split; auto. split; [congruence|reflexivity]. }
  destruct (@neqb QcNum x n1) eqn:X.
  - apply Ok_inj in E. subst. split; auto. split; [|reflexivity]. intros N.
    exfalso. apply N. apply Qceqb_eq in X. subst x. apply Qc_is_canon. reflexivity.
  - apply rmap_ok in E as (t' & E1 & ->). destruct H as [H1 H2]. rewrite T in H2.
    apply tspace_stretch_ok in E1; auto. destruct E1 as [E1 E2]. split; [split; cbn; auto|].
    split; [|reflexivity]. intros _ t0 T0. injection T0 as <-.
    unfold word_width. cbn [w_tail w_boxes]. rewrite T, E2.
    unfold word_pruned_width. cbn. ring.
Qed.
Lemma wl_stretch_tail_ok w (x : Qc) : forall w', wl_ok w -> wl_stretch_tail w x = Ok w' ->
  wl_ok w' /\ (x <> 1 -> forall t, wl_tail w = Some t -> wl_width w' = wl_width w + x * ts_width t)
  /\ wl_pruned_width w' = wl_pruned_width w.
Proof.
  induction w as [b0|w|w IH c]; intros w' H E; cbn [wl_stretch_tail] in E.
  - apply Ok_inj in E. subst. split; auto. split; [cbn; congruence|reflexivity].
  - apply rmap_ok in E as (b' & E1 & ->). apply word_stretch_tail_ok in E1; auto.
  - destruct (wl_tail w) eqn:T.
    + apply rmap_ok in E as (b' & E1 & ->). cbn. eauto.
      rewrite T. eauto.
    + apply Ok_inj in E. subst. split; auto. split; [cbn; rewrite T; congruence|reflexivity].
Qed.

(** ** parsing *)
Lemma tspace_new_ok st prev : tail_ok (Some (tspace_new st prev)) st.
Proof. split; reflexivity. Qed.
Lemma slugs_new_ok parts st : forall prev bs, slugs_new parts st prev = Ok bs -> Forall box_ok bs.
Proof.
  induction parts as [|p parts IH]; intros prev bs E; cbn in E.
  - apply Ok_inj in E. subst. constructor.
  - destruct p as [|c p]; [discriminate|]. apply bind_ok in E as (x & E1 & E). apply Ok_inj in E. subst bs.
    constructor; eauto. apply slug_new_ok. discriminate.
Qed.
Lemma word_new_ok s st prev w : word_new s st prev = Ok w -> word_ok w.
Proof.
  unfold word_new. destruct (tspace_parse s st prev) as [s' t] eqn:T. intros E.
  apply bind_ok in E as (parts & E1 & E). apply bind_ok in E as (bs & E2 & E). apply Ok_inj in E. subst w.
  split; cbn; [eapply slugs_new_ok; eauto|].
  unfold tspace_parse in T. destruct s; [injection T as <- <-; exact I|].
  destruct (_ =? _)%N; injection T as <- <-; [apply tspace_new_ok|exact I].
Qed.
Lemma simple_words_ok fuel : forall t st prev ws last, t <> [] -> simple_words fuel t st prev = Ok (ws, last) ->
  Forall word_ok ws /\ match last with inl r => r <> [] | inr w => word_ok w end.
Proof.
  induction fuel as [|fuel IH]; intros t st prev ws last N E; cbn in E; [discriminate|].
  destruct (split_word t) as [[w r]|].
  - apply bind_ok in E as (x & E1 & E). apply word_new_ok in E1. destruct r as [|c r].
    + apply Ok_inj in E. injection E as <- <-. auto.
    + apply bind_ok in E as ([ws' l'] & E2 & E). apply Ok_inj in E. injection E as <- <-.
      apply IH in E2; [|discriminate]. cbn. destruct E2. auto.
  - apply Ok_inj in E. injection E as <- <-. auto.
Qed.
Lemma segments_ok parts : forall seg prev st cmds l p st', slug_ok seg ->
  segments parts seg prev st cmds = (l, p, st') -> segs_ok l.
Proof.
  induction parts as [|[cmd t] parts IH]; intros seg prev st cmds l p st' H E; cbn [segments] in E.
  - injection E as <- <- <-. constructor; auto.
  - destruct t as [|c t].
    + eapply IH; eauto.
    + destruct (segments parts _ _ _ _) as [[l' p'] s'] eqn:S in E. injection E as <- <- <-.
      constructor; auto. eapply IH; [|exact S]. apply slug_new_ok. discriminate.
Qed.
Lemma complete_word_ok it head st w next : head <> [] -> complete_word it head st = Ok (w, next) -> word_ok w.
Proof.
  intros N. unfold complete_word. destruct (take_parts it) as [parts nx]. destruct parts as [|p parts].
  - intros E. apply bind_ok in E as (x & E1 & E). apply Ok_inj in E. injection E as <- <-.
    eapply word_new_ok; eauto.
  - destruct (segments _ _ _ _ _) as [[l p'] s'] eqn:S. intros E. apply Ok_inj in E. injection E as <- <-.
    apply segments_ok in S; [|apply slug_new_ok, N]. split; cbn.
    + constructor; auto.
    + destruct (match nx with Some _ => _ | None => _ end); [apply tspace_new_ok|exact I].
Qed.
Lemma parse_loop_ok fuel : forall it st txt ws ex, parse_loop fuel it st txt = Ok (ws, ex) -> Forall wl_ok ws.
Proof.
  induction fuel as [|fuel IH]; intros it st txt ws ex E; cbn [parse_loop] in E; [discriminate|].
  destruct txt as [|c txt]; [apply Ok_inj in E; injection E as <- <-; constructor|].
  apply bind_ok in E as ([ws0 last] & E1 & E). apply simple_words_ok in E1; [|discriminate].
  destruct E1 as [W L].
  assert (W' : Forall wl_ok (map WWord ws0)) by (apply Forall_map; eapply Forall_impl; [|exact W]; auto).
  assert (FIN : forall last st it, word_ok last ->
     match it with
            | [] => Ok (map WWord ws0 ++ [WWord last], true)
            | (cmd, t) :: it' =>
                do y <- parse_loop fuel it' (apply cmd st) t;
                Ok (map WWord ws0 ++ with_cmd (WWord last) cmd :: fst y, snd y)
            end = Ok (ws, ex) -> Forall wl_ok ws).
  { intros la s i HL F. destruct i as [|[cmd t] i].
    - apply Ok_inj in F. injection F as <- <-. apply Forall_app; auto.
    - apply bind_ok in F as ([a b] & F1 & F). apply Ok_inj in F. injection F as <- <-.
      apply Forall_app; split; auto. constructor; [apply with_cmd_ok, HL|eapply IH; eauto]. }
  destruct last as [head|w].
  - apply bind_ok in E as ([w next] & E2 & E). apply complete_word_ok in E2; auto.
    destruct next as [[[|c0 r] it']|].
    + eapply FIN; eauto.
    + apply bind_ok in E as ([a b] & F1 & F). apply Ok_inj in F. injection F as <- <-.
      apply Forall_app; split; auto. constructor; [exact E2|eapply IH; eauto].
    + apply Ok_inj in E. injection E as <- <-. apply Forall_app; auto.
  - eapply FIN; eauto.
Qed.
Lemma into_words_ok ps st c ws ex : into_words ps st = Ok (c, ws, ex) -> Forall wl_ok ws.
Proof.
  unfold into_words. destruct (fold_commands ps st []) as [[cmd x] st']. destruct x as [[t it]|].
  - intros E. apply bind_ok in E as ([a b] & E1 & E). apply Ok_inj in E. injection E as <- <- <-.
    eapply parse_loop_ok; eauto.
  - intros E. apply Ok_inj in E. injection E as <- <- <-. constructor.
Qed.
End Width.

(** ** Hyphenation *)
Section Hyph.
Context {ENV : Env QcNum}.
Open Scope Qc_scope.
Definition bsum (l : list box) : Qc := @nsum QcNum (map box_width l).
Lemma bsum_nil : bsum [] = 0. Proof. apply nsum_nil_Qc. Qed.
Lemma bsum_cons b l : bsum (b :: l) = box_width b + bsum l. Proof. apply nsum_cons_Qc. Qed.
Lemma bsum_app a b : bsum (a ++ b) = bsum a + bsum b.
Proof. unfold bsum. rewrite map_app. apply nsum_app_Qc. Qed.
Lemma hyph_word w (sp : @num QcNum) a b : word_hyphenate w sp = Ok (Some a, b) ->
  exists pre x nb r, w_boxes w = pre ++ x :: nb :: r /\ w_boxes a = pre ++ [box_with_hyphen x]
    /\ w_boxes b = box_without_init_kern nb :: r
    /\ w_tail a = None
    /\ bsum (pre ++ [box_with_hyphen x]) <= sp
    /\ sp < bsum (pre ++ [x; box_with_hyphen nb]).
Proof.
  unfold word_hyphenate. destruct (w_boxes w) as [|b0 rest] eqn:B; [discriminate|].
  destruct (nltb _ _) eqn:C; [discriminate|].
  intros E. apply bind_ok in E as ([[[fit st'] nb] r] & HL & E). apply Ok_inj in E. injection E as <- <-.
  apply hyph_loop_split in HL as (pre & x & E1 & -> & -> & E4 & E5).
  exists pre, x, nb, r. rewrite E1. cbn [w_boxes w_tail app]. split; [reflexivity|]. split; [reflexivity|].
  split; [reflexivity|]. split; [reflexivity|].
  apply Qcltb_nlt in C.
  rewrite !bsum_app, !bsum_cons, !bsum_nil.
  fold (bsum (pre ++ [x])) in E4. fold (bsum pre) in E5. rewrite bsum_app, bsum_cons, bsum_nil in E4.
  set (H := box_width (box_with_hyphen nb)) in *. set (X := box_width x) in *. set (P := bsum pre) in *.
  split.
  - destruct pre as [|b1 pre].
    + injection E1 as E1 _. subst x. subst P. rewrite bsum_nil.
      set (Y := box_width (box_with_hyphen b0)) in *. clearbody Y. clear - C. qc.
    + specialize (E5 ltac:(discriminate)). set (Y := box_width (box_with_hyphen x)) in *.
      clearbody P Y. clear - E5. qc.
  - clearbody P X H. clear - E4. qc.
Qed.
Definition hyphen_widens (b : box) : Prop := box_width b <= box_width (box_with_hyphen b).
Lemma hyph_loop_err (b : box) rest (sp : @num QcNum) f0 e :
  Forall hyphen_widens (b :: rest) -> box_width (box_with_hyphen b) <= sp ->
  hyph_loop b rest sp f0 = Err e -> bsum (b :: rest) <= sp.
Proof.
  revert b sp f0. induction rest as [|nb rest IH]; intros b sp f0 F L E; cbn [hyph_loop] in E.
  - rewrite bsum_cons, bsum_nil. inversion F as [|? ? F1 _]; subst. unfold hyphen_widens in F1.
    set (X := box_width b) in *. set (Y := box_width (box_with_hyphen b)) in *. clearbody X Y. clear - F1 L. qc.
  - cbn zeta in E. destruct (nltb _ _) eqn:C; [discriminate|]. inversion F; subst.
    apply Qcltb_nlt in C. apply IH in E; auto.
    rewrite bsum_cons. cbn [nsub QcNum] in E. set (X := box_width b) in *. set (Y := bsum (nb :: rest)) in *.
    clearbody X Y. clear - E. qc.
Qed.
Lemma word_hyph_total w (sp : @num QcNum) : Forall hyphen_widens (w_boxes w) -> sp < word_pruned_width w ->
  exists a b, word_hyphenate w sp = Ok (a, b).
Proof.
  intros F L. unfold word_hyphenate. destruct (w_boxes w) as [|b0 rest] eqn:B; [eauto|].
  destruct (nltb _ _) eqn:C; [eauto|]. apply Qcltb_nlt in C.
  destruct (hyph_loop b0 rest sp []) as [[[[fit st] nb] r]|e] eqn:E; [cbn; eauto|].
  exfalso. apply hyph_loop_err in E; auto. unfold word_pruned_width in L. rewrite B in L.
  fold (bsum (b0 :: rest)) in L. set (X := bsum (b0 :: rest)) in *. clearbody X. clear - E L. qc.
Qed.
Lemma wl_hyph_total w (sp : @num QcNum) : Forall hyphen_widens (wl_boxes w) -> sp < wl_pruned_width w ->
  exists a b, wl_hyphenate w sp = Ok (a, b).
Proof.
  induction w as [b|w|w IH c]; cbn [wl_boxes wl_pruned_width wl_hyphenate]; intros F L.
  - eauto.
  - destruct (word_hyph_total w sp F L) as (a & b & ->). cbn. eauto.
  - destruct (IH F L) as (a & b & ->). cbn. eauto.
Qed.
Lemma nsum_one (x : Qc) : @nsum QcNum [x] = x.
Proof. apply (eq_trans (nsum_cons_Qc x [])). apply (Qcplus_0_r x). Qed.
Lemma single_kern_width f p : @nsum QcNum (map snd (font_kern f [45%N] (Some p))) = charkern f p 45%N.
Proof.
  unfold font_kern, charkern. destruct (kerntab f) as [tab|]; [|reflexivity].
  unfold kern. cbn. destruct (@ntruthy QcNum (tab p 45%N)) eqn:T.
  - apply nsum_one.
  - apply ntruthy_false in T. rewrite T. reflexivity.
Qed.
(** a hyphen never has negative width, after any character of any font *)
Definition hyphens_nonneg : Prop :=
  forall f c, 0 <= @charwidth QcNum ENV f 45%N + charkern f c 45%N.
Lemma hyphen_widens_ok b : hyphens_nonneg -> 0 <= @st_size QcNum (box_state b) -> hyphen_widens b.
Proof.
  intros H Z. unfold hyphen_widens.
  assert (G : forall f c z, 0 <= z -> 0 <= (@charwidth QcNum ENV f 45%N + charkern f c 45%N) / thousand * z).
  { intros f c z Hz. rewrite Qcdiv_def. specialize (H f c).
    assert (T : 0 <= / thousand) by (unfold Qcle; vm_compute; discriminate).
    assert (M : forall a b, 0 <= a -> 0 <= b -> 0 <= a * b).
    { intros a b' Ha Hb. rewrite <- (Qcmult_0_l b'). apply Qcmult_le_compat_r; assumption. }
    auto. }
  assert (A : forall a c : Qc, 0 <= c -> a <= a + c).
  { intros a c Hc. rewrite <- (Qcplus_0_r a) at 1. apply Qcplus_le_compat; [apply Qcle_refl|assumption]. }
  destruct b as [s|l st]; cbn [box_with_hyphen box_width box_state] in *.
  - unfold slug_with_hyphen. cbn [sl_width]. apply A. change (@n1000 QcNum) with thousand. apply G, Z.
  - rewrite map_app, nsum_app_Qc. apply A. cbn [map fst]. rewrite nsum_one.
    unfold slug_new. cbn [sl_width]. change (@n1000 QcNum) with thousand.
    rewrite single_kern_width. unfold font_width. cbn [map]. rewrite nsum_one.
    change (@n1000 QcNum) with thousand. unfold hyphen_char.
    specialize (G (st_font st) (segs_last l) (st_size st) Z). cbn [ndiv nadd nmul QcNum].
    rewrite ?Qcdiv_def in *. rewrite <- Qcmult_plus_distr_l. exact G.
Qed.
End Hyph.
