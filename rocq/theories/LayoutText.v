(** * LayoutText: the text, the styles and the room of paragraphs. *)
From Coq Require Import QArith Qcanon.
From Verif Require Import Base Num Fonts State Style TextSpec StateProofs Words WordsSpec WordProofs WordOps
  Parse Render RenderSpec Show Firstfit LineSpec FirstfitProofs WordWidth FirstfitWidth KnuthPlass Optimum
  Common Draw TextBlock Layout LayoutSpec LayoutProofs Properties_Firstfit Properties_Optimum.
Open Scope nat_scope.

Section Text.
Context {NUM : Num} {ENV : Env NUM}.

Lemma conserves_text (lines : list (list schar)) whole : conserves lines whole ->
  shows_text (map (map fst) lines) (map fst whole).
Proof.
  intros (pieces & <- & F). exists (map (map fst) pieces). split; [symmetry; apply concat_map|].
  induction F as [|p l ps ls H F IH]; cbn [map]; constructor; auto.
  destruct H as [->|[(st & ->)|(st & ->)]]; unfold is_text_line; rewrite ?map_app; auto.
Qed.
Lemma Forall2_map_both {A B C D} (f : A -> C) (g : B -> D) (R : C -> D -> Prop) l m :
  Forall2 R (map f l) (map g m) <-> Forall2 (fun x y => R (f x) (g y)) l m.
Proof.
  split.
  - revert m; induction l as [|x l IH]; intros [|y m] H; inversion H; subst; constructor; auto.
  - induction 1; cbn; constructor; auto.
Qed.
(** the optimal algorithm needs columns of non-negative height *)
Definition heights_ok (p : para) (cols : nat -> num * num) (lead : num) : Prop :=
  p_optimal p = None \/ forall i, (0 <= nfloordiv (snd (cols i)) lead)%Z.
Lemma shape_text fuel p ws cols ae lead chunks : paragraph_words ws -> heights_ok p cols lead ->
  shape fuel p ws cols ae lead = Ok chunks ->
  conserves (map (fun l => measured_all (tl_words l)) (concat chunks)) (measured_all ws).
Proof.
  intros PW H E. unfold shape in E. destruct (p_optimal p) as [[tolerance P]|] eqn:EO.
  - apply rmap_inv in E as (out & E & ->). destruct H as [H|H]; [congruence|].
    rewrite <- (concat_map opt_tline), map_map. cbn [opt_tline tl_words].
    eapply C45_optimum_keeps_text; eauto.
  - apply rmap_inv in E as (out & E & ->). rewrite <- (concat_map ff_tline), map_map. cbn [ff_tline tl_words].
    eapply C34_firstfit_keeps_text; eauto.
Qed.
Lemma shape_cmd fuel p ws cols ae lead chunks : shape fuel p ws cols ae lead = Ok chunks ->
  Forall (fun l => tl_cmd l = NoOp) (concat chunks).
Proof.
  unfold shape. destruct (p_optimal p) as [[tolerance P]|]; intros E; apply rmap_inv in E as (out & E & ->);
    apply Forall_concat, Forall_forall; intros l I; apply in_map_iff in I as (x & <- & _);
    apply Forall_forall; intros t J; apply in_map_iff in J as (y & <- & _); reflexivity.
Qed.
Lemma indent_measured ws x ws' : indent_first ws x = Ok ws' ->
  measured_all ws' = measured_all ws /\ (forall s, end_all ws' s = end_all ws s)
  /\ (forall s, coh_all ws s -> coh_all ws' s).
Proof. intros E. apply alike_all. eapply indent_first_alike; eauto. Qed.

(** the columns at each step of a run satisfy [heights_ok] *)
Inductive run_heights (fuel : nat) (p : para) (lead : num) :
  list (list passage) -> (nat -> colfill) -> state -> list (list (list tline)) -> Prop :=
| rh_nil cs st : run_heights fuel p lead [] cs st []
| rh_group g r cs st cmd ws ws' ex chunks rest :
    into_words g st = Ok (cmd, ws, ex) -> indent_first ws (p_indent p) = Ok ws' ->
    shape fuel p ws' (fun i => (c_width (cf_box (cs i)), cf_free (cs i)))
        (match cf_blocks (cs 0) with [] => false | _ => true end) lead = Ok chunks ->
    heights_ok p (fun i => (c_width (cf_box (cs i)), cf_free (cs i))) lead ->
    (ex = false -> rest = []) ->
    (ex = true -> exists cs', run_heights fuel p lead r cs' (states_after chunks (apply cmd st)) rest) ->
    run_heights fuel p lead (g :: r) cs st (chunks :: rest).
Lemma run_heights_ff fuel p lead gs cs st cks : p_optimal p = None ->
  para_run fuel p lead gs cs st cks -> run_heights fuel p lead gs cs st cks.
Proof.
  intros N. induction 1; [constructor|]. eapply rh_group; eauto.
  left. exact N.
Qed.
Lemma run_text fuel p lead gs : forall cs st cks, all_split -> Forall text_group gs ->
  run_heights fuel p lead gs cs st cks ->
  Forall2 (fun g chunks => shows_text (map line_text (concat chunks)) (text_of g)) gs cks.
Proof.
  induction gs as [|g gs IH]; intros cs st cks HY T R; inversion R; subst; [constructor|].
  inversion T as [|? ? T1 T2]; subst.
  destruct (text_group_words g st HY T1) as (cmd' & ws0 & W & M & C & EN & Z).
  match goal with H : into_words g st = Ok (cmd, ws, ex) |- _ => rename H into W1 end. rewrite W in W1. apply Ok_inj in W1. injection W1 as <- <- <-.
  constructor.
  - match goal with H : indent_first _ _ = Ok _ |- _ => destruct (indent_measured _ _ _ H) as (M1 & _) ; rename H into II end.
    match goal with H : shape _ _ _ _ _ _ = Ok _ |- _ => rename H into SH end.
    rewrite <- (styled_text g st), <- M, <- M1. unfold line_text.
    rewrite <- (map_map (fun l => measured_all (tl_words l)) (map fst)).
    apply conserves_text. eapply shape_text; [| |exact SH]; [|assumption]. eapply pw_indented; eauto. eapply pw_parsed; eauto.
  - match goal with H : true = true -> _ |- _ => destruct (H eq_refl) as (cs' & RR) end. eapply IH; eauto.
Qed.

(** ** Styles (first-fit) *)
Lemma end_all_last ws : forall s,
  match rev ws with w :: _ => wl_state w | [] => s end = end_all ws s.
Proof.
  induction ws as [|w ws IH] using rev_ind; intros s; [reflexivity|].
  rewrite rev_app_distr, end_all_app. reflexivity.
Qed.
Lemma states_after_end chunks : forall s, states_after chunks s = end_all (text_words (concat chunks)) s.
Proof.
  unfold states_after, text_words. induction chunks as [|ls chunks IH]; intros s; [reflexivity|].
  cbn [fold_left concat]. rewrite flat_map_app, end_all_app. rewrite IH. f_equal.
  rewrite <- end_all_last. unfold text_end_state, text_words. destruct (rev (flat_map tl_words ls)); reflexivity.
Qed.
Lemma ff_shape_style fuel p ws cols ae lead chunks : p_optimal p = None ->
  shape fuel p ws cols ae lead = Ok chunks -> forall s, coh_all ws s ->
  coh_all (text_words (concat chunks)) s /\ end_all (text_words (concat chunks)) s = end_all ws s.
Proof.
  intros N E s C. unfold shape in E. rewrite N in E. apply rmap_inv in E as (out & E & ->).
  assert (W : text_words (concat (map (map ff_tline) out)) = words_shown out).
  { unfold text_words, words_shown. rewrite <- (concat_map ff_tline), !flat_map_concat_map, map_map. reflexivity. }
  rewrite W. eapply C34_firstfit_keeps_text; eauto.
Qed.
Lemma coherent_chunks chunks : forall s, coh_all (text_words (concat chunks)) s ->
  Forall (fun ls => exists s, coh_all (text_words ls) s) chunks.
Proof.
  induction chunks as [|ls chunks IH]; intros s C; [constructor|]. cbn [concat] in C. unfold text_words in C.
  rewrite flat_map_app in C. apply coh_all_app in C as [C1 C2]. constructor; [eauto|]. eapply IH; eauto.
Qed.
Lemma run_styles fuel p lead gs : forall cs st cks, all_split -> Forall text_group gs -> p_optimal p = None ->
  para_run fuel p lead gs cs st cks ->
  Forall2 (fun line chunks => conserves (map (fun l => measured_all (tl_words l)) (concat chunks)) line)
          (styled_groups gs st) cks
  /\ Forall (Forall (fun ls => exists s, coh_all (text_words ls) s)) cks.
Proof.
  induction gs as [|g gs IH]; intros cs st cks HY T N R; inversion R; subst; [split; constructor|].
  inversion T as [|? ? T1 T2]; subst.
  destruct (text_group_words g st HY T1) as (cmd' & ws0 & W & M & C & EN & Z).
  match goal with H : into_words g st = Ok (cmd, ws, ex) |- _ => rename H into W1 end. rewrite W in W1. apply Ok_inj in W1. injection W1 as <- <- <-.
  match goal with H : indent_first _ _ = Ok _ |- _ => destruct (indent_measured _ _ _ H) as (M1 & EE & CC); assert (PW : paragraph_words ws') by (eapply pw_indented; [eapply pw_parsed; exact W|exact H]) end.
  match goal with H : shape _ _ _ _ _ _ = Ok _ |- _ => rename H into SH end.
  destruct (ff_shape_style _ _ _ _ _ _ _ N SH _ (CC _ C)) as (C2 & E2).
  match goal with H : true = true -> _ |- _ => specialize (H eq_refl); rename H into RR end.
  rewrite states_after_end, E2, EE, EN in RR. apply IH in RR as (I1 & I2); auto.
  split.
  - cbn [styled_groups]. constructor; [|exact I1]. rewrite <- M, <- M1. eapply shape_text; eauto. left. exact N.
  - constructor; [|exact I2]. eapply coherent_chunks; eauto.
Qed.
(** ** Words that keep the style *)
Definition plain_box (b : box) : Prop := match b with BSlug _ => True | BMixed _ _ => False end.
Definition plain (w : wordlike) : Prop :=
  match w with WBox b => plain_box b | WWord w => Forall plain_box (w_boxes w) | WCmd _ _ => False end.
Lemma plain_state w s : plain w -> coh w s -> wl_state w = s.
Proof.
  destruct w as [[x|l st]|w|w c]; cbn; try contradiction.
  - auto.
  - intros P [C ->]. revert s C. induction P as [|b l H P IH]; intros s; cbn; [auto|].
    intros [C1 C2]. destruct b as [x|]; [|contradiction]. cbn in *. rewrite <- C1. apply IH. exact C2.
Qed.
Lemma coh_lines ls : forall s, Forall (fun l => tl_cmd l = NoOp) ls -> coh_all (text_words ls) s -> lines_coh ls s.
Proof.
  induction ls as [|l ls IH]; intros s F C; [exact I|]. inversion F; subst. unfold text_words in C. cbn [flat_map] in C.
  apply coh_all_app in C as [C1 C2]. cbn [lines_coh]. rewrite H1. cbn [apply]. split; [exact C1|]. apply IH; auto.
Qed.
Lemma no_words_chars ls : text_words ls = [] -> lines_chars ls = [].
Proof.
  unfold text_words, lines_chars. induction ls as [|l ls IH]; cbn; [auto|]. intros E. apply app_eq_nil in E as [E1 E2].
  rewrite E1, IH by exact E2. reflexivity.
Qed.
Definition quiet (o : op) : Prop := match o with OTJ l => l = [] | _ => True end.
Lemma quiet_view os : forall v, Forall quiet os -> shown_chars (fst (view v os)) = [].
Proof.
  induction os as [|o os IH]; intros v F; [reflexivity|]. inversion F as [|? ? Q F']; subst.
  cbn [view]. specialize (IH (vstep v o) F'). destruct (view (vstep v o) os) as [out v'].
  cbn [fst] in *. destruct o; try exact IH. cbn in Q. subst. exact IH.
Qed.
Lemma quiet_line l : tl_cmd l = NoOp -> tl_words l = [] -> Forall quiet (tline_ops l).
Proof. intros E F. unfold tline_ops. rewrite E, F. cbn. constructor; [reflexivity|constructor]. Qed.
Lemma quiet_lines a ls lead : forall width, Forall (fun l => tl_cmd l = NoOp) ls ->
  Forall (fun l => tl_words l = []) ls -> Forall quiet (render_lines a ls lead width).
Proof.
  assert (L : Forall (fun l => tl_cmd l = NoOp) ls -> Forall (fun l => tl_words l = []) ls ->
    Forall quiet (render_left ls lead)).
  { intros F W. unfold render_left. constructor; [exact I|]. induction F; inversion W; subst; [constructor|].
    cbn [flat_map]. apply Forall_app; split; [constructor; [exact I|apply quiet_line; assumption]|auto]. }
  intros width F W. destruct a; cbn [render_lines]; auto.
  - clear L. revert width. induction F; intros w; inversion W; subst; [constructor|]. cbn [render_centered].
    constructor; [exact I|]. apply Forall_app; split; [apply quiet_line; assumption|auto].
  - clear L. revert width. induction F; intros w; inversion W; subst; [constructor|]. cbn [render_right].
    constructor; [exact I|]. apply Forall_app; split; [apply quiet_line; assumption|auto].
Qed.
(** a chunk whose first word does not change the style is shown as it was measured *)
Definition same_look (s t : state) : Prop :=
  st_font s = st_font t /\ st_size s = st_size t /\ st_color s = st_color t.
Lemma chunk_shows ls lead a h pos width s v : Forall (fun l => tl_cmd l = NoOp) ls ->
  coh_all (text_words ls) s ->
  (forall w r, text_words ls = w :: r -> same_look (wl_state w) s) ->
  shown_chars (fst (view v (sh_ops (SText ls lead a h) pos width))) = map want (lines_chars ls).
Proof.
  intros F C A. cbn [sh_ops]. unfold text_pre_state. destruct (text_words ls) as [|w r] eqn:E.
  - rewrite no_words_chars by exact E. cbn [map].
    assert (W : Forall (fun l => tl_words l = []) ls).
    { clear -E. unfold text_words in E. induction ls as [|l ls IH]; constructor; cbn in E; apply app_eq_nil in E; tauto. }
    apply quiet_view. unfold render_text. cbn [app]. repeat (constructor; [exact I|]).
    apply Forall_app; split; [apply quiet_lines; assumption|]. constructor; [exact I|constructor].
  - specialize (A w r eq_refl). destruct A as (A1 & A2 & A3).
    rewrite <- E in C. apply coh_lines in C; [|exact F].
    unfold render_text. cbn [state_ops app].
    do 4 rewrite view_cons by discriminate. rewrite view_app1, shown_chars_app.
    rewrite view_cons by discriminate. cbn [view fst]. cbn [shown_chars flat_map]. rewrite app_nil_r.
    apply (render_lines_shows a ls lead width s C). split; [cbn; f_equal; exact A1|split; assumption].
Qed.

(** ** The first word of a chunk *)
Definition look (v : vstate) : option font * num * rgb := (v_font v, v_size v, v_color v).
Lemma view_look os : forall v v', look v = look v' ->
  shown_chars (fst (view v os)) = shown_chars (fst (view v' os)) /\ look (snd (view v os)) = look (snd (view v' os)).
Proof.
  induction os as [|o os IH]; intros v v' L; [split; [reflexivity|exact L]|].
  assert (L2 : look (vstep v o) = look (vstep v' o)).
  { unfold look in *. injection L as L1 L2 L3. destruct o; cbn; congruence. }
  cbn [view]. specialize (IH _ _ L2). destruct (view (vstep v o) os) as [x vx], (view (vstep v' o) os) as [y vy].
  cbn [fst snd] in *. destruct IH as [I1 I2]. split; [|exact I2]. destruct o; try exact I1.
  unfold shown_chars in *. cbn [flat_map sh_items sh_v]. rewrite I1. f_equal.
  unfold look in L. injection L as E1 E2 E3. cbn. rewrite E1, E2, E3. reflexivity.
Qed.
Lemma look_settles os : forall v0 v1, look (snd (view v0 os)) = look v1 -> look (snd (view v1 os)) = look v1.
Proof.
  assert (P : forall {T} (f : vstate -> T), (forall o, (forall v, f (vstep v o) = f v) \/ (exists c, forall v, f (vstep v o) = c)) ->
     forall os, (forall v, f (snd (view v os)) = f v) \/ (exists c, forall v, f (snd (view v os)) = c)).
  { clear os. intros T f H. induction os as [|o os IH]; [left; reflexivity|].
    assert (S : forall v, snd (view v (o :: os)) = snd (view (vstep v o) os)).
    { intros v. cbn [view]. destruct (view (vstep v o) os). reflexivity. }
    destruct IH as [IH|(c & IH)].
    - destruct (H o) as [Ho|(c & Ho)]; [left|right; exists c]; intros v; rewrite S, IH, Ho; reflexivity.
    - right. exists c. intros v. rewrite S. apply IH. }
  intros v0 v1 L. unfold look in *. injection L as L1 L2 L3.
  assert (Q : forall {T} (f : vstate -> T), (forall o, (forall v, f (vstep v o) = f v) \/ (exists c, forall v, f (vstep v o) = c)) ->
     f (snd (view v0 os)) = f v1 -> f (snd (view v1 os)) = f v1).
  { intros T f H E. destruct (P T f H os) as [K|(c & K)]; [apply K|]. rewrite K in E |- *. exact E. }
  f_equal; [f_equal|].
  - apply (Q _ v_font); [|exact L1]. intros []; cbn; eauto.
  - apply (Q _ v_size); [|exact L2]. intros []; cbn; eauto.
  - apply (Q _ v_color); [|exact L3]. intros []; cbn; eauto.
Qed.
Lemma same_codes os : forall v v', map fst (shown_chars (fst (view v os))) = map fst (shown_chars (fst (view v' os))).
Proof.
  induction os as [|o os IH]; intros v v'; [reflexivity|]. cbn [view]. specialize (IH (vstep v o) (vstep v' o)).
  destruct (view (vstep v o) os) as [x vx], (view (vstep v' o) os) as [y vy]. cbn [fst] in *. destruct o; try exact IH.
  unfold shown_chars in *. cbn [flat_map sh_items sh_v]. rewrite !map_app, IH. f_equal.
  induction items as [|i l IHl]; [reflexivity|]. cbn [flat_map]. rewrite !map_app, IHl. f_equal. rewrite !map_map. reflexivity.
Qed.
Lemma skipn_map' {A B} (f : A -> B) n l : map f (skipn n l) = skipn n (map f l).
Proof. revert l; induction n as [|n IH]; intros [|x l]; cbn; auto. Qed.
Definition moves (o : op) : Prop :=
  match o with OTL _ | OTstar | OTD _ _ => True | OTJ l => l = [] | _ => False end.
Lemma moves_view os : Forall moves os -> forall v, shown_chars (fst (view v os)) = [] /\ look (snd (view v os)) = look v.
Proof.
  induction 1 as [|o os M F IH]; intros v; [split; reflexivity|]. cbn [view].
  specialize (IH (vstep v o)). destruct (view (vstep v o) os) as [x vx]. cbn [fst snd] in *. destruct IH as [I1 I2].
  destruct o; try contradiction; (split; [try exact I1|rewrite I2; reflexivity]). cbn in M. subst. exact I1.
Qed.
Lemma line_first w r : exists rest, line_ops (w :: r) = fst (into_line w []) ++ rest.
Proof.
  unfold line_ops. cbn [words_into_line]. destruct (into_line w []) as [o1 ln1]. destruct (words_into_line r ln1) as [o2 ln2].
  cbn [fst]. exists (o2 ++ [OTJ ln2]). symmetry. apply app_assoc.
Qed.
Lemma lines_first a lead w r : forall ls width, Forall (fun l => tl_cmd l = NoOp) ls -> text_words ls = w :: r ->
  exists pre rest, Forall moves pre /\ render_lines a ls lead width = pre ++ fst (into_line w []) ++ rest.
Proof.
  assert (T : forall l, tl_cmd l = NoOp -> tl_words l = [] -> Forall moves (tline_ops l)).
  { intros l E F. unfold tline_ops. rewrite E, F. cbn. constructor; [reflexivity|constructor]. }
  assert (U : forall l w' r', tl_cmd l = NoOp -> tl_words l = w' :: r' -> exists rest, tline_ops l = fst (into_line w' []) ++ rest).
  { intros l w' r' E F. unfold tline_ops. rewrite E, F. cbn [cmd_ops app]. apply line_first. }
  assert (L : forall ls, Forall (fun l => tl_cmd l = NoOp) ls -> text_words ls = w :: r ->
    exists pre rest, Forall moves pre /\ flat_map (fun l => OTstar :: tline_ops l) ls = pre ++ fst (into_line w []) ++ rest).
  { induction ls as [|l ls IH]; intros F E; [discriminate|]. inversion F as [|? ? F1 F2]; subst. unfold text_words in E. cbn [flat_map] in E |- *.
    destruct (tl_words l) as [|w' r'] eqn:EW.
    - destruct (IH F2 E) as (pre & rest & M & ->). exists ((OTstar :: tline_ops l) ++ pre), rest. split.
      + apply Forall_app; split; [constructor; [exact I|apply T; assumption]|exact M].
      + rewrite <- app_assoc. reflexivity.
    - injection E as -> _. destruct (U l w r' F1 EW) as (rest & ->). exists [OTstar]. eexists. split; [repeat constructor|].
      cbn [app]. rewrite <- app_assoc. reflexivity. }
  assert (G : forall (f : num -> num -> num) ls prev, Forall (fun l => tl_cmd l = NoOp) ls -> text_words ls = w :: r ->
    exists pre rest, Forall moves pre /\
     (fix go ls prev := match ls with [] => [] | l :: r => OTD (f prev (tl_width l)) (nneg lead) :: tline_ops l ++ go r (tl_width l) end) ls prev
       = pre ++ fst (into_line w []) ++ rest).
  { intros f. induction ls as [|l ls IH]; intros prev F E; [discriminate|]. inversion F as [|? ? F1 F2]; subst. unfold text_words in E. cbn [flat_map] in E.
    destruct (tl_words l) as [|w' r'] eqn:EW.
    - destruct (IH (tl_width l) F2 E) as (pre & rest & M & ->). eexists ((OTD _ _ :: tline_ops l) ++ pre), rest. split.
      + apply Forall_app; split; [constructor; [exact I|apply T; assumption]|exact M].
      + rewrite <- app_assoc. reflexivity.
    - injection E as -> _. destruct (U l w r' F1 EW) as (rest & ->). eexists [OTD _ _]. eexists. split; [repeat constructor|].
      cbn [app]. rewrite <- app_assoc. reflexivity. }
  intros ls width F E. destruct a; cbn [render_lines].
  - destruct (L ls F E) as (pre & rest & M & X). exists (OTL lead :: pre), rest. split; [constructor; [exact I|exact M]|].
    unfold render_left. rewrite X. reflexivity.
  - replace (render_centered ls lead width) with
      ((fix go ls prev := match ls with [] => [] | l :: r => OTD ((fun p w => ndiv (nsub p w) (nZ 2)) prev (tl_width l)) (nneg lead) :: tline_ops l ++ go r (tl_width l) end) ls width).
    + apply (G (fun p w => ndiv (nsub p w) (nZ 2))); assumption.
    + clear. revert width. induction ls as [|l ls IH]; intros w; [reflexivity|]. cbn [render_centered]. rewrite <- IH. reflexivity.
  - replace (render_right ls lead width) with
      ((fix go ls prev := match ls with [] => [] | l :: r => OTD (nsub prev (tl_width l)) (nneg lead) :: tline_ops l ++ go r (tl_width l) end) ls width).
    + apply (G nsub); assumption.
    + clear. revert width. induction ls as [|l ls IH]; intros w; [reflexivity|]. cbn [render_right]. rewrite <- IH. reflexivity.
  - destruct (L ls F E) as (pre & rest & M & X). exists (OTL lead :: pre), rest. split; [constructor; [exact I|exact M]|].
    unfold render_left. rewrite X. reflexivity.
Qed.
(** Whatever the first word: what follows it is shown as it was measured; of the
    first word, the right characters are shown, encoded for the right font. *)
Lemma chunk_tail ls lead a h pos width s w r v : Forall (fun l => tl_cmd l = NoOp) ls ->
  coh_all (text_words ls) s -> text_words ls = w :: r ->
  exists A B X, lines_chars ls = A ++ B /\ List.length A <= List.length (measured w)
    /\ shown_chars (fst (view v (sh_ops (SText ls lead a h) pos width))) = X ++ map want B
    /\ map fst X = map (fun c => fst (want c)) A.
Proof.
  intros F C E. cbn [sh_ops]. unfold text_pre_state. rewrite E. unfold render_text. cbn [state_ops app].
  do 4 rewrite view_cons by discriminate. set (v1 := vstep _ (Org _)).
  assert (A1 : agree v1 (wl_state w)) by (repeat split).
  set (v0 := mkV (Some (st_font s)) (st_size s) (st_color s) n0 n0 n0).
  assert (A0 : agree v0 s) by (repeat split).
  pose proof (render_lines_shows a ls lead width s (coh_lines ls s F C) v0 A0) as W.
  destruct (lines_first a lead w r ls width F E) as (pre & rest & M & ER).
  rewrite ER in W |- *. rewrite E in C. destruct C as [C1 C2].
  rewrite view_app1, shown_chars_app. rewrite view_cons by discriminate. cbn [view fst]. cbn [shown_chars flat_map]. rewrite app_nil_r.
  rewrite app_assoc in W |- *. rewrite view_app1, shown_chars_app in W |- *.
  set (o := pre ++ fst (into_line w [])) in *.
  (* the look after the first word *)
  assert (P0 : pending s []) by constructor.
  assert (MV := moves_view pre M). 
  assert (LK : look (snd (view v0 o)) = look v1 /\ List.length (shown_chars (fst (view v0 o))) <= List.length (measured w)).
  { unfold o. rewrite view_app. cbn [fst snd]. destruct (MV v0) as (S0 & L0). rewrite shown_chars_app, S0. cbn [app].
    assert (A2 : agree (snd (view v0 pre)) s).
    { unfold look in L0. injection L0 as X1 X2 X3. destruct A0 as (Y1 & Y2 & Y3). repeat split; congruence. }
    pose proof (wl_shows w _ s [] A2 P0 C1) as H. destruct (into_line w []) as [o1 ln1]. cbn [fst snd] in *.
    destruct H as (H1 & (B1 & B2 & B3) & _). split.
    - destruct A1 as (D1 & D2 & D3). unfold look. rewrite B1, B2, B3, D1, D2, D3. reflexivity.
    - apply (f_equal (@List.length _)) in H1. rewrite app_length, !map_length in H1. cbn [app] in H1. eapply Nat.le_trans; [|apply Nat.eq_le_incl; exact H1]. apply Nat.le_add_r. }
  destruct LK as (LK & LEN). pose proof (look_settles o v0 v1 LK) as LS.
  assert (TL : shown_chars (fst (view (snd (view v1 o)) rest)) = shown_chars (fst (view (snd (view v0 o)) rest))).
  { apply view_look. rewrite LS, LK. reflexivity. }
  set (n := List.length (shown_chars (fst (view v0 o)))) in *.
  exists (firstn n (lines_chars ls)), (skipn n (lines_chars ls)), (shown_chars (fst (view v1 o))).
  split; [symmetry; apply firstn_skipn|]. split; [rewrite firstn_length; lia|]. split.
  - f_equal. rewrite TL. transitivity (skipn n (map want (lines_chars ls))); [|symmetry; apply skipn_map'].
    rewrite <- W, skipn_app. unfold n.
    rewrite skipn_all, Nat.sub_diag. reflexivity.
  - rewrite (same_codes o v1 v0). transitivity (map fst (map want (firstn n (lines_chars ls)))); [|apply map_map].
    transitivity (map fst (firstn n (map want (lines_chars ls)))); [|f_equal; apply firstn_map].
    rewrite <- W. rewrite firstn_app. unfold n. rewrite firstn_all, Nat.sub_diag. cbn [firstn]. rewrite app_nil_r. reflexivity.
Qed.
End Text.
