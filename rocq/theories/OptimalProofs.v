(** * OptimalProofs: breakings of the boxes are ways of cutting the pieces. *)
From Coq Require Import QArith Qcanon Qround Lqa.
From Verif Require Import Base Gfmt FontSpec FontProofs Num Fonts State TextSpec StateProofs
  Words WordsSpec WordProofs WordOps Parse Render RenderSpec RenderProofs WordWidth LineSpec Firstfit FirstfitProofs FirstfitWidth
  KnuthPlass KPSpec KPProofs Properties_KnuthPlass Optimum OptimumProofs OptimumWidth OptimumLines OptimumTotal Properties_Optimum.
From Verif Require OptimalSpec.
Import OptimalSpec.
Open Scope nat_scope.

(** ** No fragment is without text *)
Section Full.
Context {NUM : Num} {ENV : Env NUM}.
Definition ends_dashed_of (l : list schar) : bool :=
  match rev l with (c, _) :: _ => ((c =? 45) || (c =? 8212))%N | [] => false end.
Definition full_slug (s : slug) : Prop := sl_txt s <> [].
Definition full_box (b : box) : Prop :=
  match b with BSlug s => full_slug s | BMixed l _ => l <> [] /\ Forall (fun p => full_slug (fst p)) l end.
Definition full_wl (w : wordlike) : Prop := Forall full_box (wl_boxes w).
Lemma word_new_full s st prev w : word_new s st prev = Ok w -> full_wl (WWord w).
Proof.
  unfold word_new. destruct (tspace_parse s st prev) as [s' t]. intros E. apply bind_ok in E as (parts & _ & E).
  apply bind_ok in E as (bl & E1 & E). apply Ok_inj in E. subst w. unfold full_wl. cbn [wl_boxes w_boxes].
  revert prev bl E1. induction parts as [|[|c p] parts IH]; intros prev bl E1; cbn [slugs_new] in E1; [apply Ok_inj in E1; subst; constructor|discriminate|].
  apply bind_ok in E1 as (r & R & E1). apply Ok_inj in E1. subst bl. constructor; [cbn; discriminate|]. eapply IH; exact R.
Qed.
Lemma simple_words_full fuel : forall t st prev ws x, t <> [] -> simple_words fuel t st prev = Ok (ws, x) ->
  Forall (fun w => full_wl (WWord w)) ws /\ match x with inr w => full_wl (WWord w) | inl h => h <> [] end.
Proof.
  induction fuel as [|fuel IH]; intros t st prev ws x NE; cbn [simple_words]; [discriminate|]. destruct (split_word t) as [[w r]|].
  2:{ intros E. apply Ok_inj in E. injection E as <- <-. split; [constructor|exact NE]. }
  intros E. apply bind_ok in E as (y & Y & E). apply word_new_full in Y. destruct r.
  - apply Ok_inj in E. injection E as <- <-. split; [constructor|exact Y].
  - apply bind_ok in E as ([ws' x'] & Z & E). apply IH in Z as [A B]; [|discriminate]. apply Ok_inj in E. injection E as <- <-. split; [constructor; assumption|exact B].
Qed.
Lemma segments_full parts : forall seg prev st cmds, full_slug seg ->
  full_box (BMixed (fst (fst (segments parts seg prev st cmds))) st).
Proof.
  induction parts as [|[cmd t] parts IH]; intros seg prev st cmds F; cbn [segments].
  - split; [discriminate|repeat constructor; exact F].
  - destruct t as [|c t]; [apply IH, F|].
    match goal with |- context [segments parts (slug_new (c :: t) ?a ?b) ?p ?q ?r] =>
      destruct (IH (slug_new (c :: t) a b) p q r ltac:(discriminate)) as (IH1 & IH2) end.
    destruct (segments _ _ _ _ _) as [[l p] q]. cbn in *. split; [discriminate|constructor; assumption].
Qed.
Lemma complete_word_full it head st w next : head <> [] -> complete_word it head st = Ok (w, next) -> full_wl (WWord w).
Proof.
  intros NE. unfold complete_word. destruct (take_parts it) as [parts nx]. destruct parts as [|p parts].
  - intros E. apply bind_ok in E as (y & Y & E). apply Ok_inj in E. injection E as <- <-. eapply word_new_full; eauto.
  - set (ps := match nx with Some _ => cut_parts (p :: parts) | None => p :: parts end).
    pose proof (segments_full ps (slug_new head st None) (Some (slug_last (slug_new head st None))) st [] NE) as H.
    destruct (segments _ _ _ _ _) as [[segs prev] st']. cbn [fst] in H. intros E. apply Ok_inj in E. injection E as <- <-.
    constructor; [exact H|constructor].
Qed.
Lemma full_cmd w c : full_wl w -> full_wl (with_cmd w c).
Proof. destruct c; auto. Qed.
Lemma parse_full fuel : forall it st txt ws ex, parse_loop fuel it st txt = Ok (ws, ex) -> Forall full_wl ws.
Proof.
  induction fuel as [|fuel IH]; intros it st txt ws ex H; cbn [parse_loop] in H; [discriminate|].
  destruct txt as [|c txt]; [inversion H; constructor|].
  apply bind_ok in H as ([ws0 last] & E0 & H). cbn [fst snd] in H.
  apply simple_words_full in E0 as (W0 & LA); auto; [|discriminate].
  assert (W0' : Forall full_wl (map WWord ws0)). { apply Forall_map. exact W0. }
  destruct last as [head|w].
  - apply bind_ok in H as ([w next] & E1 & H). apply complete_word_full in E1; auto. destruct next as [[[|c0 r] it']|].
    + destruct it' as [|[cmd t] it'']; [inversion H; apply Forall_app; split; auto; repeat constructor; auto|].
      apply bind_ok in H as ([y e] & E & H). inversion H; subst. apply Forall_app; split; auto.
      constructor; [apply full_cmd; auto|]. eapply IH; eauto.
    + apply bind_ok in H as ([y e] & E & H). inversion H; subst. apply Forall_app; split; auto.
      constructor; [auto|]. eapply IH; eauto.
    + inversion H. apply Forall_app; split; auto; repeat constructor; auto.
  - destruct it as [|[cmd t] it'']; [inversion H; apply Forall_app; split; auto; repeat constructor; auto|].
    apply bind_ok in H as ([y e] & E & H). inversion H; subst. apply Forall_app; split; auto.
    constructor; [apply full_cmd; auto|]. eapply IH; eauto.
Qed.
Lemma into_words_full ps st cmd ws ex : into_words ps st = Ok (cmd, ws, ex) -> Forall full_wl ws.
Proof.
  unfold into_words. destruct (fold_commands ps st []) as [[c x] st']. destruct x as [[t it]|].
  - intros E. apply bind_ok in E as ([y e] & Y & E). apply Ok_inj in E. injection E as <- <- <-. eapply parse_full; eauto.
  - intros E. apply Ok_inj in E. injection E as <- <- <-. constructor.
Qed.
Lemma indent_full w x w' : full_wl w -> wl_indent w x = Ok w' -> full_wl w'.
Proof.
  assert (SX : forall s x y, full_slug s -> slug_indent s x = Ok y -> full_slug y).
  { intros s y z F E. unfold slug_indent in E. destruct (ntruthy y); [|inversion E; subst; exact F].
    destruct (slug_has_init_kern s); [discriminate|]. apply bind_ok in E as (q & _ & E). inversion E; subst. exact F. }
  assert (BX : forall b x y, full_box b -> box_indent b x = Ok y -> full_box y).
  { intros b y z F E. destruct b as [s|l st]; cbn [box_indent] in E.
    - apply rmap_inv in E as (s' & E & ->). eapply SX; eauto.
    - destruct (ntruthy y); [|inversion E; subst; exact F]. destruct F as (NE & F). destruct l as [|[s c] l]; [congruence|].
      apply rmap_inv in E as (s' & E & ->). inversion F; subst. split; [discriminate|]. constructor; auto. cbn in *. eapply SX; eauto. }
  revert w'. induction w as [b|w|w IH c]; intros w' H E; cbn in E.
  - apply rmap_inv in E as (y & E & ->). inversion H; subst. constructor; [eapply BX; eauto|constructor].
  - apply rmap_inv in E as (y & E & ->). unfold word_indent in E. destruct (ntruthy x); [|inversion E; subst; exact H].
    unfold full_wl in *. cbn [wl_boxes] in *. destruct (w_boxes w) as [|b r].
    + destruct (w_tail w); [|discriminate]. apply rmap_inv in E as (z & _ & ->). constructor.
    + apply rmap_inv in E as (z & E & ->). inversion H; subst. constructor; eauto.
  - destruct (ntruthy x); [|inversion E; subst; exact H]. apply rmap_inv in E as (y & E & ->). apply (IH y H E).
Qed.
Lemma pw_full ws : paragraph_words ws -> Forall full_wl ws.
Proof.
  induction 1 as [|ws x ws' _ IH E]; [eapply into_words_full; eauto|].
  unfold indent_first in E. destruct ws as [|w r]; [inversion E; constructor|]. apply bind_ok in E as (w' & E1 & E). inversion E; subst.
  inversion IH; subst. constructor; auto. eapply indent_full; eauto.
Qed.
(** the last character of a fragment *)
Lemma rev_map_last {A B} (f : A -> B) (l : list A) d : l <> [] -> exists r, rev (map f l) = f (List.last l d) :: r.
Proof.
  intros NE. destruct (@exists_last _ l NE) as (l' & x & ->). rewrite map_app, rev_app_distr, last_last. cbn. eauto.
Qed.
Lemma measured_last b : full_box b -> exists s r, rev (measured_box b) = (box_last b, s) :: r.
Proof.
  assert (SL : forall s, full_slug s -> exists t r, rev (measured_slug s) = (slug_last s, t) :: r).
  { intros s F. unfold measured_slug, styled_str, slug_last, str_last, full_slug in *.
    destruct (rev_map_last (fun c => (c, sl_state s)) (sl_txt s) 0%N F) as (r & E). exists (sl_state s), r. exact E. }
  destruct b as [s|l st]; cbn [full_box measured_box box_last]; [apply SL|].
  intros (NE & F). destruct (@exists_last _ l NE) as (l' & (s & c) & ->). apply Forall_app in F as (_ & F). inversion F as [|? ? F1 _]; subst.
  destruct (SL s F1) as (t & r & E). unfold segs_last, measured_segs. rewrite rev_app_distr. cbn [rev app].
  rewrite flat_map_app, rev_app_distr. cbn [flat_map]. rewrite app_nil_r. cbn [fst]. rewrite E. cbn. eauto.
Qed.
Lemma box_last_dashed b : full_box b -> ends_dashed_of (measured_box b) = ((box_last b =? 45) || (box_last b =? em_dash))%N.
Proof. intros F. destruct (measured_last b F) as (s & r & E). unfold ends_dashed_of. rewrite E. reflexivity. Qed.
End Full.

Section Pieces.
Context {ENV : Env QcNum}.
Open Scope Qc_scope.
(** a fragment, its box, and the piece of the text *)
Record matches (fb : @fragment QcNum * @kbox QcNum) (p : piece) : Prop := {
  m_in : tw (fst fb) = wl_advance (pc_in p);
  m_end : bw (fst fb) = all_advance (pc_end p);
  m_gap : gap (fst fb) = pc_space p;
  m_hyphen : kb_hyphenated (snd fb) = pc_hyphen p;
  m_text : measured (fr_txt (fst fb)) = measured (pc_in p);
  m_break : match fr_break (fst fb) with Some w => measured w | None => [] end = measured_all (pc_end p) }.
Lemma chunk_matches bs : Forall box_ok bs -> forall (wd st sh : Qc),
  Forall2 matches (fst (chunk_boxes bs wd st sh)) (map inner_piece bs).
Proof.
  induction 1 as [|b bs Hb _ IH]; intros wd st sh; cbn [chunk_boxes map fst]; [constructor|].
  specialize (IH (nadd wd (box_width b)) st sh). destruct (chunk_boxes bs _ st sh) as (l & w). cbn [fst] in *.
  constructor; auto. split; cbn [fst snd fr_txt fr_break kb_hyphenated inner_piece pc_in pc_end pc_space pc_hyphen measured_all flat_map measured]; auto.
  - unfold tw. apply wl_width_ok, Hb.
  - unfold bw. cbn [fr_break]. rewrite all_advance_one. apply wl_width_ok. cbn. apply box_with_hyphen_ok, Hb.
  - rewrite app_nil_r. reflexivity.
Qed.
Lemma word_matches just w (wd st sh : Qc) l wd' st' sh' : wl_ok w -> flat w -> full_wl w ->
  word_boxes just w wd st sh = Ok (l, wd', st', sh') -> Forall2 matches l (wl_pieces w).
Proof.
  intros O F FU H. unfold word_boxes in H.
  assert (U : exists x c, unwrap w = (WWord x, c) /\ word_ok x /\ wl_pieces w = word_pieces x /\ Forall full_box (w_boxes x)).
  { destruct w as [b|x|[b|x|w c'] c]; cbn in F; try contradiction; [exists x, NoOp|exists x, c]; auto. }
  destruct U as (x & c & U & (BO & TO) & EP & FB). rewrite U in H. cbn [wl_boxes wl_tail wl_state] in H. clear U O F FU. rewrite EP. clear EP.
  unfold word_pieces.
  destruct (rev (w_boxes x)) as [|b r] eqn:R.
  - assert (E : w_boxes x = []) by (rewrite <- (rev_involutive (w_boxes x)), R; reflexivity). rewrite E in H. cbn [removelast chunk_boxes app] in H.
    destruct (w_tail x) as [t|] eqn:T; [|discriminate]. apply Ok_inj in H. injection H as <- _ _ _. constructor; [|constructor].
    assert (WO : wl_ok (WWord (mkWord [] (Some t) (w_state x)))) by (split; [constructor|exact TO]).
    split; cbn [fst snd fr_txt fr_break kb_hyphenated last_piece pc_in pc_end pc_space pc_hyphen map]; auto.
    unfold tw. apply wl_width_ok, WO.
  - pose proof (removelast_last_rev _ _ _ R) as ER. pose proof (f_equal (@rev _) R) as R'. rewrite rev_involutive in R'. cbn [rev] in R'.
    assert (EI : removelast (w_boxes x) = rev r). { rewrite R', removelast_last. reflexivity. }
    rewrite R' in BO, FB. apply Forall_app in BO as (BO & BL). apply Forall_app in FB as (FB & FL).
    inversion BL as [|? ? BLb _]; subst. inversion FL as [|? ? FLb _]; subst. clear BL FL.
    rewrite EI in H. pose proof (chunk_matches (rev r) BO wd st sh) as CM. destruct (chunk_boxes (rev r) wd st sh) as (ch & w1). cbn [fst] in CM.
    destruct (w_tail x) as [t|] eqn:T; apply Ok_inj in H; injection H as <- _ _ _; (apply Forall2_app; [exact CM|]; constructor; [|constructor]).
    + assert (WO : wl_ok (WWord (mkWord [b] (Some t) (w_state x)))) by (split; [repeat constructor; exact BLb|exact TO]).
      split; cbn [fst snd fr_txt fr_break kb_hyphenated last_piece pc_in pc_end pc_space pc_hyphen map measured_all flat_map measured]; auto.
      * unfold tw. apply wl_width_ok, WO.
      * unfold bw. cbn [fr_break]. rewrite all_advance_one. apply wl_width_ok. exact BLb.
      * rewrite app_nil_r. reflexivity.
    + assert (WO : wl_ok (WWord (mkWord [b] None (w_state x)))) by (split; [repeat constructor; exact BLb|exact I]).
      split; cbn [fst snd fr_txt fr_break kb_hyphenated last_piece pc_in pc_end pc_space pc_hyphen map measured_all flat_map measured]; auto.
      * unfold tw. cbn [fr_txt]. rewrite (wl_width_ok (WBox b)) by exact BLb. rewrite <- (wl_width_ok _ WO). cbn [wl_width].
        unfold word_width, word_pruned_width, word_prunable. cbn [map w_boxes w_tail]. rewrite nsum1.
        rewrite <- (wl_width_ok (WBox b)) by exact BLb. cbn [wl_width]. change (box_width b = box_width b + 0). symmetry. apply Qcplus_0_r.
      * unfold bw. cbn [fr_break]. rewrite all_advance_one. apply wl_width_ok. exact BLb.
      * cbn [existsb]. rewrite orb_false_r. symmetry. apply (box_last_dashed b FLb).
      * unfold measured_word. cbn [w_boxes w_tail measured_tail flat_map]. rewrite !app_nil_r. reflexivity.
      * rewrite app_nil_r. reflexivity.
Qed.
Lemma words_matches just ws : Forall wl_ok ws -> Forall flat ws -> Forall full_wl ws -> forall (wd st sh : Qc) l,
  words_boxes just ws wd st sh = Ok l -> Forall2 matches l (pieces ws).
Proof.
  induction 1 as [|w ws Ow Ows IH]; intros F FU wd st sh l H; cbn [words_boxes] in H.
  - inversion H; subst. constructor.
  - inversion F; subst. inversion FU; subst. apply bind_ok in H as ([[[l1 wd1] st1] sh1] & E1 & H). apply bind_ok in H as (l2 & E2 & H). inversion H; subst l.
    apply word_matches in E1; auto. unfold pieces. cbn [flat_map]. apply Forall2_app; auto. eapply IH; eauto.
Qed.

(** ** One line *)
Lemma F2_len {A B} (R : A -> B -> Prop) l1 l2 : Forall2 R l1 l2 -> List.length l1 = List.length l2.
Proof. induction 1; cbn; auto. Qed.
Lemma F2_split {A B} (R : A -> B -> Prop) l1 l2 l : Forall2 R (l1 ++ l2) l ->
  exists k1 k2, l = k1 ++ k2 /\ Forall2 R l1 k1 /\ Forall2 R l2 k2.
Proof. intros H. apply Forall2_app_inv_l in H as (k1 & k2 & A1 & A2 & ->). eauto. Qed.
Lemma shown_snoc init last : shown (init ++ [last]) = map pc_in init ++ pc_end last.
Proof. unfold shown. rewrite rev_app_distr. cbn. rewrite rev_involutive. reflexivity. Qed.
Lemma matches_natural init last pi pl : Forall2 matches init pi -> matches last pl ->
  all_advance (shown (pi ++ [pl])) = natural (map fst init) (fst last)
  /\ spaces (pi ++ [pl]) = total gap (map fst init).
Proof.
  intros F M. rewrite shown_snoc, all_advance_app. unfold natural, spaces. rewrite removelast_last, (m_end _ _ M).
  assert (A : all_advance (map pc_in pi) = total tw (map fst init) /\ fold_right (fun p a => pc_space p + a) 0 pi = total gap (map fst init)).
  { clear -F. induction F as [|x p l k M _ (IH1 & IH2)]; [auto|]. cbn [map fold_right]. rewrite !total_cons, IH2, (m_in _ _ M), (m_gap _ _ M).
    split; auto. unfold all_advance in *. cbn [fold_right]. rewrite IH1. reflexivity. }
  destruct A as (-> & ->). auto.
Qed.

Variables (full : list (@fragment QcNum * @kbox QcNum)) (pcs : list piece).
Variables (width : nat -> Qc) (ragged : bool) (three st0 wd' st' sh' : Qc).
Hypothesis SU : sums (negb ragged) 0 st0 0 full wd' st' sh'.
Hypothesis THREE : if ragged then three <> 0 /\ st0 = three else st0 = 0.
Hypothesis M : Forall2 matches full pcs.
Hypothesis WP : ragged = false -> forall k, width k <> 0.
Let bs : list (@kbox QcNum) := map snd full.

Lemma line_ratio_value a ln rest k q : pcs = a ++ ln ++ rest -> ln <> [] ->
  line_ratio bs width ragged k (List.length a) (List.length a + List.length ln) q ->
  q = ratio ragged three (width k) ln.
Proof.
  intros E NE LR. destruct (@exists_last _ ln NE) as (pi & pl & ->).
  rewrite E, <- app_assoc in M. cbn [app] in M.
  apply Forall2_app_inv_r in M as (fa & f1 & Ma & M1 & Ef). apply Forall2_app_inv_r in M1 as (fi & f2 & Mi & M2 & Ef1).
  inversion M2 as [|fl ? fr ? Ml Mr]; subst f2 f1. clear M2.
  assert (L1 : List.length a = List.length fa) by (symmetry; eapply F2_len; eauto).
  assert (L2 : List.length pi = List.length fi) by (symmetry; eapply F2_len; eauto).
  rewrite app_length in LR. cbn [List.length] in LR. rewrite Nat.add_1_r, L1, L2 in LR.
  destruct (matches_natural _ _ _ _ Mi Ml) as (N1 & N2).
  destruct (line_ratio_sums (negb ragged) ragged width full fa fi fr fl st0 wd' st' sh' k q SU) as (f & R); auto.
  { destruct ragged; [discriminate|auto]. }
  unfold ratio. cbn zeta. rewrite N1, N2. set (n := natural (map fst fi) (fst fl)) in *. clearbody n.
  destruct ragged; cbn [negb] in *.
  - assert (KS : kb_stretch (snd fl) = three).
    { destruct fl as (fl & b). pose proof SU as S1. rewrite Ef, app_assoc in S1. apply sums_nth in S1 as (_ & _ & S1 & _). cbn [snd]. rewrite S1. destruct THREE as (_ & ->).
      assert (Z : forall l, total (stretch_of false) l = 0). { induction l as [|x l IH]; [reflexivity|]. rewrite total_cons, IH. unfold stretch_of. ring. }
      rewrite Z. apply Qcplus_0_r. }
    rewrite KS in R. inversion R as [A B|A]; subst q.
    + change (Qcleb 0 (width k - (f + n) + f) = true) in A. apply Qcleb_le in A.
      assert (L : n <= width k). { clear -A. set (w := width k) in *. clearbody w. qc. }
      apply Qcleb_le in L. rewrite L. change ((width k - (f + n) + f) / three = (width k - n) / three). f_equal.
      clear. set (w := width k). clearbody w. revert w f. intros w f. change (w - (f + n) + f = w - n). generalize (f : Qc). intros f'. ring.
    + change (Qcleb 0 (width k - (f + n) + f) = false) in A. apply Qcleb_nle in A.
      assert (L : width k < n). { clear -A. set (w := width k) in *. clearbody w. qc. }
      apply Qcleb_nle in L. rewrite L. reflexivity.
  - destruct R as (s1 & s2 & R & S). destruct (S eq_refl) as (-> & ->). clear S. set (g := total gap (map fst fi)) in *. clearbody g.
    assert (EN : forall f n : Qc, f + n - f = n) by (intros; ring). specialize (EN f n).
    assert (HZ : forall c : Qc, c <> 0 -> Qceqb (g * c) 0 = Qceqb g 0).
    { intros c Hc. destruct (Qceqb g 0) eqn:G.
      - apply Qceqb_eq in G. apply Qceqb_eq. rewrite G. ring.
      - apply Qceqb_neq in G. apply Qceqb_neq. intros Z. apply Qcmult_integral in Z. tauto. }
    assert (H2 : half <> 0) by (intros X; apply (f_equal this) in X; discriminate).
    assert (H3 : third <> 0) by (intros X; apply (f_equal this) in X; discriminate).
    inversion R as [A B|A B|A B|A B C]; subst q;
      repeat change (@nsub QcNum (f + n) f) with (f + n - f) in *; rewrite EN in *;
      repeat change (@nltb QcNum n (width k)) with (Qcltb n (width k)) in *;
      repeat change (@neqb QcNum n (width k)) with (Qceqb n (width k)) in *.
    + change (Qceqb (g * half) 0 = false) in B. rewrite HZ in B by exact H2. rewrite B, A. reflexivity.
    + change (Qceqb (g * third) 0 = false) in B. rewrite HZ in B by exact H3. rewrite B, A. reflexivity.
    + assert (G : Qceqb g 0 = true).
      { destruct (Qcltb n (width k)); [rewrite <- (HZ half H2)|rewrite <- (HZ third H3)]; exact B. }
      rewrite G, A. reflexivity.
    + assert (G : Qceqb g 0 = true).
      { destruct (Qcltb n (width k)); [rewrite <- (HZ half H2)|rewrite <- (HZ third H3)]; exact B. }
      rewrite G, A. reflexivity.
Qed.
Lemma bs_len : List.length bs = List.length pcs.
Proof. unfold bs. rewrite map_length. eapply F2_len; eauto. Qed.
Lemma line_start_ex i : (i < List.length bs)%nat -> exists f g h, @line_start QcNum bs i f g h.
Proof.
  intros L. destruct i as [|i]; [exists n0, n0, n0; cbn; auto|].
  destruct (nth_error_len bs i ltac:(lia)) as (x & X). destruct (nth_error_len bs (S i) L) as (y & Y).
  exists (kb_incl_space x), (kb_stretch y), (kb_shrink y). exists x, y. auto.
Qed.
Lemma stretch_const b : ragged = true -> In b bs -> kb_stretch b = three.
Proof.
  intros R I. unfold bs in I. apply in_map_iff in I as ((f & b') & <- & I). apply in_split in I as (l1 & l2 & E). cbn [snd].
  pose proof SU as S1. rewrite E in S1. apply sums_nth in S1 as (_ & _ & S1 & _). rewrite S1, R.
  assert (ST : st0 = three) by (pose proof THREE as TH; rewrite R in TH; apply TH). rewrite ST.
  assert (Z : forall l, total (stretch_of (negb true)) l = 0). { induction l as [|x l IH]; [reflexivity|]. rewrite total_cons, IH. unfold stretch_of. cbn. ring. }
  rewrite Z. apply Qcplus_0_r.
Qed.
Lemma line_ratio_ex k i j : (i < j)%nat -> (j <= List.length bs)%nat -> exists q, line_ratio bs width ragged k i j q.
Proof.
  intros L1 L2. destruct (nth_error_len bs (j - 1) ltac:(lia)) as (b & B). destruct (line_start_ex i ltac:(lia)) as (f & g & h & LS).
  assert (G : exists q, if ragged then ragged_ratio f (kb_incl_hyphen b) (kb_stretch b) (width k) q
     else justified_ratio f (kb_incl_hyphen b) (kb_stretch b - g)%num (kb_shrink b - h)%num (width k) q).
  { pose proof (fun R => stretch_const b R (nth_error_In _ _ B)) as SC. destruct ragged eqn:R.
    - destruct (nleb n0 (@nadd QcNum (@nsub QcNum (width k) (kb_incl_hyphen b)) f)) eqn:A.
      + eexists. apply rr_fits; auto. rewrite SC; auto. apply Qceqb_neq. apply THREE.
      + eexists. apply rr_overfull; auto.
    - pose proof (WP eq_refl k) as WK.
      set (st := @nsub QcNum (kb_stretch b) g). set (sh := @nsub QcNum (kb_shrink b) h). set (len := @nsub QcNum (kb_incl_hyphen b) f).
      destruct (@nltb QcNum len (width k)) eqn:A.
      + destruct (@neqb QcNum st n0) eqn:S; [|eexists; apply jr_stretch; auto].
        destruct (@neqb QcNum len (width k)) eqn:EW.
        * eexists. apply jr_exact; auto. fold len. rewrite A. exact S.
        * eexists. apply jr_rigid; auto; [fold len; rewrite A; exact S|]. apply Qceqb_neq. exact WK.
      + destruct (@neqb QcNum sh n0) eqn:S; [|eexists; apply jr_shrink; auto].
        destruct (@neqb QcNum len (width k)) eqn:EW.
        * eexists. apply jr_exact; auto. fold len. rewrite A. exact S.
        * eexists. apply jr_rigid; auto; [fold len; rewrite A; exact S|]. apply Qceqb_neq. exact WK. }
  destruct G as (q & G). exists q, b, f, g, h. repeat split; auto. lia.
Qed.
Lemma line_ratio_of a ln rest k : pcs = a ++ ln ++ rest -> ln <> [] ->
  line_ratio bs width ragged k (List.length a) (List.length a + List.length ln) (ratio ragged three (width k) ln).
Proof.
  intros E NE. assert (L : (0 < List.length ln)%nat) by (destruct ln; [congruence|cbn; lia]).
  destruct (line_ratio_ex k (List.length a) (List.length a + List.length ln)) as (q & LR); [lia| |].
  - rewrite bs_len, E, !app_length. lia.
  - rewrite <- (line_ratio_value a ln rest k q E NE LR). exact LR.
Qed.

(** ** Demerits *)
Lemma class_fitness r : class r = @fitness QcNum r.
Proof. reflexivity. Qed.
Lemma badness_eq (r p : Qc) : @KPSpec.badness QcNum r p = sq (1 + badness r + p).
Proof.
  unfold KPSpec.badness, badness, sq, abs, nabs.
  change (Qcpower (Q2Qc (inject_Z 1) + Q2Qc (inject_Z 100) * Qcpower (if Qcltb r 0 then - r else r) 3 + p) 2
          = (1 + Q2Qc 100 * ((if Qcltb r 0 then - r else r) * (if Qcltb r 0 then - r else r) * (if Qcltb r 0 then - r else r)) + p)
            * (1 + Q2Qc 100 * ((if Qcltb r 0 then - r else r) * (if Qcltb r 0 then - r else r) * (if Qcltb r 0 then - r else r)) + p)).
  set (x := if Qcltb r 0 then - r else r). clearbody x.
  change (Q2Qc (inject_Z 1)) with 1. change (Q2Qc (inject_Z 100)) with (Q2Qc 100).
  assert (P2 : forall y : Qc, Qcpower y 2 = y * y) by (intros y; change (y * (y * 1) = y * y); ring).
  assert (P3 : forall y : Qc, Qcpower y 3 = y * y * y) by (intros y; change (y * (y * (y * 1)) = y * y * y); ring).
  rewrite P2, P3. reflexivity.
Qed.
Lemma contrast_eq P c c' : @nmul QcNum (@nbool QcNum (contrasting c c')) (p_fitness P) = contrast P c c'.
Proof.
  unfold contrasting, contrast. destruct ((c <=? c' + 1) && (c' <=? c + 1))%nat; cbn [negb nbool].
  - apply Qcmult_0_l.
  - apply Qcmult_1_l.
Qed.
Lemma demerits_eq P (r : Qc) hy h c c' (d rest : Qc) :
  rest + (@KPSpec.demerits QcNum P r hy h c c' + d)
  = sq (1 + badness r + if hy then p_hyphen P else 0) + (if hy && h then p_consecutive P else 0) + contrast P c c' + rest + d.
Proof.
  unfold KPSpec.demerits. rewrite contrast_eq, badness_eq.
  assert (E1 : @nmul QcNum (p_hyphen P) (nbool hy) = if hy then p_hyphen P else 0).
  { destruct hy; cbn [nbool]; [apply Qcmult_1_r|apply Qcmult_0_r]. }
  assert (E2 : @nmul QcNum (@nmul QcNum (p_consecutive P) (nbool hy)) (nbool h) = if hy && h then p_consecutive P else 0).
  { destruct hy, h; cbn [nbool andb].
    - rewrite Qcmult_1_r. apply Qcmult_1_r.
    - apply Qcmult_0_r.
    - rewrite Qcmult_0_r. apply Qcmult_0_l.
    - apply Qcmult_0_r. }
  rewrite E1, E2. set (A := sq _). set (B := if hy && h then _ else _). set (C := contrast P c c'). clearbody A B C.
  change (rest + (A + B + C + d) = A + B + C + rest + d). ring.
Qed.
Lemma last_eq P (r : Qc) c c' (d : Qc) :
  @nadd QcNum (@last_demerits QcNum P r c c') d = sq (1 + badness r) + contrast P c c' + d.
Proof.
  unfold last_demerits. rewrite contrast_eq, badness_eq. change (sq (1 + badness r + 0) + contrast P c c' + d = sq (1 + badness r) + contrast P c c' + d).
  rewrite Qcplus_0_r. reflexivity.
Qed.
Fixpoint ends (i : nat) (lns : list (list piece)) : list nat :=
  match lns with [] => [] | ln :: r => (i + List.length ln)%nat :: ends (i + List.length ln) r end.
Variables (t : @tol QcNum) (P : @params QcNum).
Notation alw := (allowed_from ragged three width (fun r => @within QcNum r t = true)).
Notation dem := (demerits_from ragged three width P).
Lemma nth_hyphen a ln b : pcs = a ++ ln ++ b -> ln <> [] ->
  exists x, nth_error bs (List.length a + List.length ln - 1) = Some x /\ kb_hyphenated x = hyphen_end ln /\ kb_no_break x = false.
Proof.
  intros E NE. destruct (@exists_last _ ln NE) as (pi & pl & ->). rewrite <- app_assoc in E. cbn [app] in E.
  pose proof M as M'. rewrite E in M'.
  apply Forall2_app_inv_r in M' as (fa & f1 & Ma & M1 & Ef). apply Forall2_app_inv_r in M1 as (fi & f2 & Mi & M2 & Ef1).
  inversion M2 as [|fl ? fr ? Ml Mr]; subst f2 f1. clear M2.
  exists (snd fl). split; [|split].
  - unfold bs. rewrite Ef. rewrite !app_length. cbn [List.length]. rewrite <- (F2_len _ _ _ Ma), <- (F2_len _ _ _ Mi).
    rewrite !map_app, nth_error_app2; rewrite map_length; [|lia].
    rewrite nth_error_app2; rewrite map_length; [|lia]. replace (_ - _ - _)%nat with 0%nat by lia. reflexivity.
  - rewrite (m_hyphen _ _ Ml). unfold hyphen_end. rewrite rev_app_distr. reflexivity.
  - pose proof SU as S1. rewrite Ef, app_assoc in S1. apply sums_split in S1 as (? & ? & ? & _ & S1). inversion S1; subst. assumption.
Qed.
Lemma ways_breaking lns : forall k a c h (d : Qc), alw k lns -> pcs = a ++ concat lns ->
  exists l, breaking bs width t P ragged k (List.length a) c h d l (dem k c h lns + d).
Proof.
  induction lns as [|ln r IH]; intros k a c h d A E; [destruct A|]. cbn [allowed_from concat] in A, E. destruct A as (NE & A).
  assert (L : (0 < List.length ln)%nat) by (destruct ln; [congruence|cbn; lia]).
  pose proof (line_ratio_of a ln (concat r) k E NE) as LR.
  destruct r as [|ln' r].
  - cbn [concat] in E. rewrite app_nil_r in E. assert (LB : List.length bs = (List.length a + List.length ln)%nat) by (rewrite bs_len, E, app_length; reflexivity).
    exists [(List.length bs, last_ratio ragged three (width k) ln)]. cbn [demerits_from]. cbn zeta.
    rewrite <- last_eq. eapply br_last with (q := ratio ragged three (width k) ln).
    + lia.
    + rewrite LB. exact LR.
    + reflexivity.
    + apply Qcltb_lt. exact A.
    + rewrite class_fitness. apply fitness_spec. reflexivity.
  - destruct A as (A1 & A2 & A3). destruct (nth_hyphen a ln _ E NE) as (x & X & XH & XB).
    destruct (IH (S k) (a ++ ln) (class (ratio ragged three (width k) ln)) (hyphen_end ln)
      (@nadd QcNum (@KPSpec.demerits QcNum P (ratio ragged three (width k) ln) (hyphen_end ln) h (class (ratio ragged three (width k) ln)) c) d) A3) as (l & B).
    { rewrite <- app_assoc. exact E. }
    rewrite app_length in B. eexists. eapply br_line with (p := (List.length a + List.length ln)%nat) (b := x) (c' := class (ratio ragged three (width k) ln)).
    + rewrite bs_len, E. cbn [concat]. rewrite !app_length. destruct A3 as (NE' & _). assert (0 < List.length ln')%nat by (destruct ln'; [congruence|cbn; lia]). lia.
    + exact X.
    + exact XB.
    + exact LR.
    + apply Qcltb_nlt. exact A1.
    + exact A2.
    + apply fitness_spec. reflexivity.
    + rewrite XH. match goal with |- breaking _ _ _ _ _ _ _ _ _ _ _ ?x => match type of B with breaking _ _ _ _ _ _ _ _ _ _ _ ?y => replace x with y; [exact B|] end end.
      cbn [demerits_from]. cbn zeta. apply demerits_eq.
Qed.
Lemma breaking_ways k i c h (d : Qc) l (tot : Qc) : breaking bs width t P ragged k i c h d l tot ->
  forall a b, pcs = a ++ b -> List.length a = i ->
  exists lns, concat lns = b /\ alw k lns /\ tot = dem k c h lns + d /\ map fst l = ends i lns.
Proof.
  induction 1 as [k i c h d q r c' L LR ER LT CL|k i c h d p x r c' l tot L X NB LR LT WI CL B IH]; intros a b E LA.
  - assert (LB : List.length bs = (List.length a + List.length b)%nat) by (rewrite bs_len, E, app_length; reflexivity).
    assert (NE : b <> []). { intros ->. cbn in LB. lia. }
    rewrite LB in LR. rewrite <- LA in LR. apply (line_ratio_value a b [] k q) in LR; [|rewrite app_nil_r; exact E|exact NE].
    assert (ER' : r = last_ratio ragged three (width k) b) by (rewrite ER, LR; reflexivity).
    apply fitness_spec in CL. rewrite <- class_fitness in CL.
    exists [b]. cbn [concat allowed_from demerits_from ends map fst]. rewrite app_nil_r. split; [reflexivity|]. split; [|split].
    + split; [exact NE|]. rewrite <- ER'. apply Qcltb_lt. exact LT.
    + cbn zeta. rewrite <- ER', <- CL. apply last_eq.
    + rewrite LB, LA. reflexivity.
  - set (m := (p - i)%nat). assert (LB : List.length bs = (List.length a + List.length b)%nat) by (rewrite bs_len, E, app_length; reflexivity).
    assert (EB : b = firstn m b ++ skipn m b) by (symmetry; apply firstn_skipn).
    assert (LM : List.length (firstn m b) = m) by (rewrite firstn_length; lia).
    set (ln := firstn m b) in *. set (b' := skipn m b) in *. assert (Lb' : List.length b = (m + List.length b')%nat) by (rewrite EB, app_length; lia).
    clearbody ln b'. subst b. assert (NE : ln <> []). { intros ->. cbn in LM. lia. }
    assert (EP : p = (List.length a + List.length ln)%nat) by lia.
    rewrite EP in LR. rewrite <- LA in LR. apply (line_ratio_value a ln b' k r E NE) in LR.
    destruct (IH (a ++ ln) b') as (lns & CO & AL & TO & EN); [rewrite <- app_assoc; exact E|rewrite app_length; lia|].
    destruct (nth_hyphen a ln _ E NE) as (x' & X' & XH & _). rewrite <- EP in X'. rewrite X in X'. inversion X'; subst x'. clear X'.
    apply fitness_spec in CL. rewrite <- class_fitness in CL. rewrite XH, CL, LR in TO. subst r.
    destruct lns as [|ln2 lns]; [destruct AL|].
    exists (ln :: ln2 :: lns). split; [|split; [|split]].
    + rewrite <- CO. reflexivity.
    + change (ln <> [] /\ Q2Qc (-1) <= ratio ragged three (width k) ln /\ (fun r => @within QcNum r t = true) (ratio ragged three (width k) ln) /\ alw (S k) (ln2 :: lns)).
      split; [exact NE|]. split; [apply Qcltb_nlt; exact LT|]. split; [exact WI|exact AL].
    + rewrite TO. cbn [demerits_from]. cbn zeta. rewrite <- demerits_eq. reflexivity.
    + cbn [ends map fst]. rewrite EN. replace (i + List.length ln)%nat with p by lia. reflexivity.
Qed.
Lemma stays_overfull : too_long_stays ragged three width pcs -> overfull_stays bs width ragged.
Proof.
  intros TL k i j j' b r r' L1 L2 L3 _ _ LR LT LR'. rewrite bs_len in L3.
  set (a := firstn i pcs). set (ln := firstn (j - i) (skipn i pcs)). set (m := firstn (j' - j) (skipn j pcs)). set (c := skipn j' pcs).
  assert (E : pcs = a ++ ln ++ m ++ c).
  { unfold a, ln, m, c. rewrite <- (skipn_firstn_split pcs j j') by lia. rewrite <- (skipn_firstn_split pcs i j) by lia. symmetry. apply firstn_skipn. }
  assert (La : List.length a = i) by (unfold a; rewrite firstn_length; lia).
  assert (Ll : List.length ln = (j - i)%nat) by (unfold ln; rewrite firstn_length, skipn_length; lia).
  assert (Lm : List.length m = (j' - j)%nat) by (unfold m; rewrite firstn_length, skipn_length; lia).
  clearbody a ln m c. assert (NE : ln <> []) by (intros ->; cbn in Ll; lia).
  assert (NE2 : ln ++ m <> []). { destruct ln; [congruence|discriminate]. }
  rewrite <- La in LR, LR'. replace j with (List.length a + List.length ln)%nat in LR by lia.
  replace j' with (List.length a + List.length (ln ++ m))%nat in LR' by (rewrite app_length; lia).
  apply (line_ratio_value a ln (m ++ c) k r E NE) in LR.
  apply (line_ratio_value a (ln ++ m) c k r') in LR'; [|rewrite <- app_assoc; exact E|exact NE2].
  subst r r'. apply Qcltb_lt in LT. apply Qcltb_lt. eapply TL; eauto.
Qed.

(** ** The lines *)
Lemma line_words_shown fa pa ws : Forall2 matches fa pa -> line_words (map fst fa) = Ok ws ->
  measured_all ws = measured_all (shown pa).
Proof.
  intros F H. destruct pa as [|p0 pa0] eqn:EP; [inversion F; subst; discriminate|]. rewrite <- EP in *.
  destruct (@exists_last _ pa) as (pi & pl & ->); [rewrite EP; discriminate|]. clear EP.
  apply Forall2_app_inv_r in F as (fi & f2 & Fi & F2 & ->). inversion F2 as [|fl ? ? ? Fl F3]; subst. inversion F3; subst.
  rewrite shown_snoc, measured_all_app. unfold line_words in H. rewrite map_app in H. cbn [map] in H. rewrite rev_app_distr in H. cbn [rev app] in H. rewrite rev_involutive in H.
  assert (MC : forall w c, measured (with_cmd w c) = measured w) by (intros w c; destruct c; reflexivity).
  assert (IN : measured_all (map (fun f => with_cmd (fr_txt f) (fr_cmd f)) (map fst fi)) = measured_all (map pc_in pi)).
  { clear -Fi MC. induction Fi as [|x p l k Mx _ IH]; [reflexivity|]. cbn [map]. unfold measured_all in *. cbn [flat_map]. rewrite IH, MC, (m_text _ _ Mx). reflexivity. }
  rewrite <- IN, <- (m_break _ _ Fl). clear IN. set (body := map _ (map fst fi)) in *. clearbody body.
  destruct (fr_break (fst fl)) as [tail|].
  - apply Ok_inj in H. subst ws. rewrite measured_all_app. f_equal. unfold measured_all. cbn [flat_map]. rewrite MC. apply app_nil_r.
  - rewrite app_nil_r. destruct (rev body) as [|x r] eqn:R; apply Ok_inj in H; subst ws.
    + rewrite <- (rev_involutive body), R. reflexivity.
    + rewrite <- (rev_involutive body), R. cbn [rev]. rewrite !measured_all_app. f_equal. unfold measured_all. cbn [flat_map]. rewrite MC. reflexivity.
Qed.
Lemma lines_shown lns : forall brs a ls, map br_pos brs = ends (List.length a) lns -> pcs = a ++ concat lns ->
  lines_ragged (List.length a) brs (map fst full) = Ok ls ->
  Forall2 (fun ln l => measured_all (ol_words l) = measured_all (shown ln)) lns ls.
Proof.
  induction lns as [|ln lns IH]; intros brs a ls EB EP H; cbn [ends] in EB; destruct brs as [|br brs]; try discriminate; cbn [lines_ragged] in H.
  - apply Ok_inj in H. subst. constructor.
  - cbn [map] in EB. injection EB as EB1 EB2. rewrite EB1 in H. apply bind_ok in H as (ws & LW & H). apply bind_ok in H as (ls' & LL & H). apply Ok_inj in H. subst ls.
    constructor.
    + cbn [ol_words]. cbn [concat] in EP. pose proof M as M'. rewrite EP in M'.
      apply Forall2_app_inv_r in M' as (fa & f1 & Ma & M1 & Ef). apply Forall2_app_inv_r in M1 as (fi & f2 & Mi & M2 & Ef1). subst f1.
      eapply line_words_shown; [exact Mi|]. rewrite <- LW. f_equal. rewrite Ef, !map_app, <- (F2_len _ _ _ Ma), <- (F2_len _ _ _ Mi).
      rewrite skipn_app, skipn_all2, map_length, Nat.sub_diag by (rewrite map_length; lia). cbn [app skipn].
      rewrite firstn_app, map_length. replace (_ - _)%nat with (List.length fi) by lia. rewrite Nat.sub_diag, firstn_O, app_nil_r.
      symmetry. apply firstn_all2. rewrite map_length. lia.
    + eapply (IH brs (a ++ ln) ls'); rewrite ?app_length; auto. rewrite <- app_assoc. exact EP.
Qed.
End Pieces.

Section Lay.
Context {ENV : Env QcNum}.
Open Scope Qc_scope.
Lemma stretch_all_text brs : forall (ls ls' : list (@oline QcNum)), stretch_all brs ls = Ok ls' -> List.length ls = List.length brs ->
  Forall2 (fun l l' => measured_all (ol_words l') = measured_all (ol_words l)) ls ls'.
Proof.
  induction brs as [|br brs IH]; intros [|l ls] ls' H L; cbn in *; try discriminate.
  - apply Ok_inj in H. subst. constructor.
  - apply bind_ok in H as (x & E1 & H). apply bind_ok in H as (r & E2 & H). apply Ok_inj in H. subst. constructor; [|apply IH; auto].
    unfold oline_stretch in E1. apply bind_ok in E1 as (ws & Mw & E1). apply Ok_inj in E1. subst x. cbn [ol_words].
    apply mapM_ok in Mw. assert (A : Forall2 alike (ol_words l) ws). { eapply Forall2_imp; [|exact Mw]. intros a b. apply wl_stretch_alike. }
    apply (alike_lines _ _ A).
Qed.
Lemma try_fit_first ts (width : nat -> Qc) P ragged (bs : list (@kbox QcNum)) brs : try_fit ts width P ragged bs = Ok brs ->
  exists i t, nth_error ts i = Some t /\ optimum_fit width t P ragged bs = Ok brs
  /\ forall i' t', (i' < i)%nat -> nth_error ts i' = Some t' -> optimum_fit width t' P ragged bs = Err ENoFeasible.
Proof.
  induction ts as [|t ts IH]; cbn [try_fit]; [discriminate|]. destruct (@optimum_fit QcNum width t P ragged bs) as [x|e] eqn:E.
  - intros H. apply Ok_inj in H. subst x. exists 0%nat, t. split; [reflexivity|]. split; [exact E|]. lia.
  - destruct e; try discriminate. intros H. destruct (IH H) as (i & t' & A & B & C). exists (S i), t'. split; [exact A|]. split; [exact B|].
    intros [|i'] t2 L N; cbn in N; [inversion N; subst; exact E|]. eapply C; eauto. lia.
Qed.
Lemma lines_len prev brs fs (ls : list (@oline QcNum)) : lines_ragged prev brs fs = Ok ls -> List.length ls = List.length brs.
Proof.
  revert prev ls. induction brs as [|b brs IH]; intros prev ls H; cbn [lines_ragged] in H; [apply Ok_inj in H; subst; reflexivity|].
  apply bind_ok in H as (ws & _ & H). apply bind_ok in H as (r & R & H). apply Ok_inj in H. subst. cbn. f_equal. eapply IH; eauto.
Qed.
Lemma tolerable_nth (tolerance : Qc) i T : tolerable tolerance i = Some T ->
  exists t, nth_error (@tolerances QcNum tolerance) i = Some t /\ forall r, T r <-> @within QcNum r t = true.
Proof.
  intros H. destruct i as [|[|[|[|[|[|i]]]]]]; [..|discriminate]; cbn [tolerable] in H; injection H as <-;
    eexists; (split; [reflexivity|]); intros r; cbn [within].
  - change (r <= tolerance <-> Qcleb r (tolerance * Q2Qc 1) = true). rewrite Qcleb_le. replace (tolerance * Q2Qc 1) with tolerance by ring. reflexivity.
  - change (r <= Q2Qc 2 * tolerance <-> Qcleb r (tolerance * Q2Qc 2) = true). rewrite Qcleb_le, Qcmult_comm. reflexivity.
  - change (r <= Q2Qc 3 * tolerance <-> Qcleb r (tolerance * Q2Qc 3) = true). rewrite Qcleb_le, Qcmult_comm. reflexivity.
  - change (r <= Q2Qc 5 * tolerance <-> Qcleb r (tolerance * Q2Qc 5) = true). rewrite Qcleb_le, Qcmult_comm. reflexivity.
  - change (r <= Q2Qc 8 * tolerance <-> Qcleb r (tolerance * Q2Qc 8) = true). rewrite Qcleb_le, Qcmult_comm. reflexivity.
  - change (0 < tolerance <-> @within QcNum r (if Qcltb 0 tolerance then TInf else if Qcltb tolerance 0 then TNegInf else TNan) = true).
    destruct (Qcltb 0 tolerance) eqn:E.
    + apply Qcltb_lt in E. split; auto.
    + apply Qcltb_nlt in E. split; [intros X; exfalso; apply (Qcle_not_lt _ _ E X)|]. destruct (Qcltb tolerance 0); discriminate.
Qed.
Lemma nth_tolerable (tolerance : Qc) i t : nth_error (@tolerances QcNum tolerance) i = Some t ->
  exists T, tolerable tolerance i = Some T /\ forall r, T r <-> @within QcNum r t = true.
Proof.
  intros H. assert (L : (i < List.length (@tolerances QcNum tolerance))%nat) by (apply nth_error_Some; rewrite H; discriminate). cbn in L.
  destruct (tolerable tolerance i) as [T|] eqn:E; [|destruct i as [|[|[|[|[|[|i]]]]]]; try discriminate; lia].
  destruct (tolerable_nth _ _ _ E) as (t' & N & W). rewrite H in N. inversion N; subst. eauto.
Qed.
Lemma allowed_ext ragged three width (T T' : Qc -> Prop) lns : (forall r, T r <-> T' r) ->
  allowed ragged three width T lns -> allowed ragged three width T' lns.
Proof.
  intros E. unfold allowed. generalize 0%nat. induction lns as [|ln [|l2 lns] IH]; intros k H; [exact H|exact H|].
  destruct H as (A & B & C & D). split; [exact A|]. split; [exact B|]. split; [apply E; exact C|]. apply IH. exact D.
Qed.
Lemma lay_best full pcs (q : @queue QcNum) ragged three st0 wd' st' sh' (tolerance : Qc) P ls :
  sums (negb ragged) 0 st0 0 full wd' st' sh' -> (if ragged then three <> 0 /\ st0 = three else st0 = 0) ->
  Forall2 matches full pcs -> (ragged = false -> forall k, line_length q k <> 0) ->
  too_long_stays ragged three (line_length q) pcs ->
  lay (map fst full) (map snd full) ragged tolerance P q = Ok ls ->
  exists i T best, tolerable tolerance i = Some T
    /\ concat best = pcs /\ allowed ragged three (line_length q) T best
    /\ Forall2 (fun ln l => measured_all (ol_words l) = measured_all (shown ln)) best ls
    /\ (forall other, concat other = pcs -> allowed ragged three (line_length q) T other ->
        demerits ragged three (line_length q) P best <= demerits ragged three (line_length q) P other)
    /\ (forall i' T' other, (i' < i)%nat -> tolerable tolerance i' = Some T' ->
        concat other = pcs -> ~ allowed ragged three (line_length q) T' other).
Proof.
  intros SU TH MA WP TL H. unfold lay in H. apply bind_ok in H as (brs & FB & H).
  unfold find_breaks in FB. destruct (map snd full) as [|b0 bs0] eqn:EB; [discriminate|]. rewrite <- EB in *.
  assert (NE : map snd full <> []) by (rewrite EB; discriminate). clear EB b0 bs0.
  apply try_fit_first in FB as (i & t & Ni & OF & PREV).
  pose proof (stays_overfull full pcs (line_length q) ragged three st0 wd' st' sh' SU TH MA WP TL) as OS.
  destruct (C42_optimal_exact_partial _ _ _ _ _ _ OS NE OF) as (FE & MIN). cbn zeta in *.
  destruct (breaking_ways full pcs (line_length q) ragged three st0 wd' st' sh' SU TH MA WP t P _ _ _ _ _ _ _ FE [] pcs eq_refl eq_refl) as (best & CO & AL & TO & EN).
  destruct (nth_tolerable _ _ _ Ni) as (T & NT & WT).
  exists i, T, best. split; [exact NT|]. split; [exact CO|]. split; [eapply allowed_ext; [|exact AL]; intros r; symmetry; apply WT|]. split; [|split].
  - unfold into_lines in H. apply bind_ok in H as (ls0 & L0 & H). pose proof (lines_len _ _ _ _ L0) as LL.
    assert (S0 : Forall2 (fun ln l => measured_all (ol_words l) = measured_all (shown ln)) best ls0).
    { eapply (lines_shown full pcs ragged MA best brs [] ls0); [|rewrite CO; reflexivity|exact L0].
      cbn [List.length]; rewrite <- EN, map_map. reflexivity. }
    destruct ragged; [apply Ok_inj in H; subst; exact S0|]. apply stretch_all_text in H; [|exact LL].
    clear -S0 H. revert ls H. induction S0 as [|a b x y E _ IH]; intros ls H; inversion H; subst; constructor; auto. congruence.
  - intros other OC OA. apply (allowed_ext _ _ _ _ _ _ WT) in OA. destruct (ways_breaking full pcs (line_length q) ragged three st0 wd' st' sh' SU TH MA WP t P other 0 [] 1%nat false 0 OA) as (l & B); [rewrite OC; reflexivity|].
    apply MIN in B. rewrite TO in B. unfold demerits. rewrite !Qcplus_0_r in B. exact B.
  - intros i' T' other L N' OC OA. destruct (tolerable_nth _ _ _ N') as (t' & N & WT'). apply (allowed_ext _ _ _ _ _ _ WT') in OA. pose proof (PREV i' t' L N) as NF.
    destruct (ways_breaking full pcs (line_length q) ragged three st0 wd' st' sh' SU TH MA WP t' P other 0 [] 1%nat false 0 OA) as (l & B); [rewrite OC; reflexivity|].
    pose proof (C42_optimal_partial QcNum (map snd full) (line_length q) t' P ragged QcNum_ordered OS NE) as C. rewrite NF in C. eapply C. exact B.
Qed.
End Lay.
