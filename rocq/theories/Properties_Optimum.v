(** * Properties C43-C48, C69: optimal typesetting of paragraphs.
    Specification: LineSpec (what lines show, which line stands in which column),
    RenderSpec (displayed widths), KPSpec (breakings), and the definitions here. *)
From Coq Require Import QArith Qcanon Qround String.
From Verif Require Import Base Gfmt FontSpec FontProofs Num Fonts State TextSpec StateProofs
  Words WordsSpec WordProofs WordOps Parse Render RenderSpec RenderProofs WordWidth
  Firstfit LineSpec FirstfitProofs FirstfitWidth Properties_Words Properties_Firstfit
  KnuthPlass KPSpec KPProofs Properties_KnuthPlass Optimum OptimumProofs OptimumWidth OptimumLines OptimumTotal.
Local Open Scope list_scope.
Open Scope nat_scope.
#[local] Existing Instance ex_words.

(** ** The words of a paragraph: parsed from its passages, the first one indented. *)
Inductive paragraph_words {NUM : Num} {ENV : Env NUM} : list wordlike -> Prop :=
| pw_parsed ps st cmd ws ex : into_words ps st = Ok (cmd, ws, ex) -> paragraph_words ws
| pw_indented ws x ws' : paragraph_words ws -> indent_first ws x = Ok ws' -> paragraph_words ws'.
(** the unbreakable fragments of a word as they look at the end of a line *)
Definition end_forms {NUM : Num} {ENV : Env NUM} (w : wordlike) : list box :=
  match rev (wl_boxes w) with
  | [] => []
  | b :: r => map box_with_hyphen (rev r) ++ [b]
  end.

Section Generic.
Context {NUM : Num} {ENV : Env NUM}.
Lemma pw_flat ws : paragraph_words ws -> Forall flat ws.
Proof. induction 1; [eapply into_words_flat|eapply indent_flat]; eauto. Qed.
Lemma indent_has_text w x w' : has_text w -> wl_indent w x = Ok w' -> has_text w'.
Proof.
  revert w'. induction w as [b|w|w IH c]; intros w' H E; cbn in E.
  - apply rmap_inv in E as (y & _ & ->). left. discriminate.
  - apply rmap_inv in E as (y & E & ->). unfold word_indent in E. destruct (ntruthy x); [|inversion E; subst; exact H].
    destruct (w_boxes w) as [|b r].
    + destruct (w_tail w); [|discriminate]. apply rmap_inv in E as (z & _ & ->). right. discriminate.
    + apply rmap_inv in E as (z & _ & ->). left. discriminate.
  - destruct (ntruthy x); [|inversion E; subst; exact H]. apply rmap_inv in E as (y & E & ->). apply (IH y H E).
Qed.
Lemma pw_has_text ws : all_split -> paragraph_words ws -> Forall has_text ws.
Proof.
  intros AS. induction 1 as [|ws x ws' _ IH E]; [eapply into_words_has_text; eauto|].
  unfold indent_first in E. destruct ws as [|w r]; [inversion E; constructor|]. apply bind_ok in E as (w' & E1 & E). inversion E; subst.
  inversion IH; subst. constructor; auto. eapply indent_has_text; eauto.
Qed.
Lemma chunk_ends bs : forall wd st sh f, In f (map fst (fst (chunk_boxes bs wd st sh))) ->
  exists b, In b bs /\ fr_txt f = WBox b /\ fr_break f = Some (WBox (box_with_hyphen b)).
Proof.
  intros wd st sh f. rewrite chunk_frags. intros H. apply in_map_iff in H as (b & <- & I). exists b. auto.
Qed.
(** every fragment comes from a word: its text and its form at the end of a line *)
Lemma word_frags just w wd st sh l wd' st' sh' : flat w -> word_boxes just w wd st sh = Ok (l, wd', st', sh') ->
  (forall f, In f (map fst l) ->
     (exists b, fr_break f = Some (WBox b) /\ In b (end_forms w)
        /\ (exists b', In b' (wl_boxes w) /\ fr_txt f = WBox b' \/ exists t st, wl_tail w = Some t /\ fr_txt f = WWord (mkWord [b] (Some t) st)
              /\ In b (wl_boxes w)))
     \/ (fr_break f = None /\ exists t st, wl_tail w = Some t /\ fr_txt f = WWord (mkWord [] (Some t) st)))
  /\ (forall b, In b (wl_boxes w) -> exists f, In f (map fst l)
        /\ (fr_break f = Some (WBox b) \/ fr_break f = Some (WBox (box_with_hyphen b)))
        /\ (fr_txt f = WBox b \/ exists t st, wl_tail w = Some t /\ fr_txt f = WWord (mkWord [b] (Some t) st))).
Proof.
  intros F H. unfold word_boxes in H.
  assert (U : exists x c, unwrap w = (WWord x, c) /\ wl_boxes w = w_boxes x /\ wl_tail w = w_tail x).
  { destruct w as [b|x|[b|x|w c'] c]; cbn in F; try contradiction; [exists x, NoOp|exists x, c]; auto. }
  destruct U as (x & c & U & EB & ET). unfold end_forms. rewrite U, EB, ET in *. cbn [wl_boxes wl_tail wl_state] in H. clear U F EB ET.
  pose proof (chunk_ends (removelast (w_boxes x)) wd st sh) as CH.
  pose proof (chunk_frags (removelast (w_boxes x)) wd st sh) as CF.
  destruct (chunk_boxes (removelast (w_boxes x)) wd st sh) as (ch & w1). cbn [fst] in CH, CF.
  assert (LB : forall b r, rev (w_boxes x) = b :: r -> w_boxes x = rev r ++ [b] /\ removelast (w_boxes x) = rev r).
  { intros b r R. assert (E : w_boxes x = rev r ++ [b]) by (rewrite <- (rev_involutive (w_boxes x)), R; reflexivity).
    split; auto. rewrite E. rewrite removelast_app by discriminate. cbn. apply app_nil_r. }
  assert (L0 : rev (w_boxes x) = [] -> w_boxes x = []). { intros R. rewrite <- (rev_involutive (w_boxes x)), R. reflexivity. }
  assert (INB : forall b r f, rev (w_boxes x) = b :: r -> In f (map fst ch) ->
     exists b0, fr_break f = Some (WBox b0) /\ In b0 (map box_with_hyphen (rev r) ++ [b]) /\ (exists b', In b' (w_boxes x) /\ fr_txt f = WBox b')).
  { intros b r f R I. destruct (CH f I) as (b0 & I0 & T & B). destruct (LB _ _ R) as (E1 & E2). exists (box_with_hyphen b0).
    split; auto. rewrite E2 in I0. split; [apply in_or_app; left; apply in_map, I0|]. exists b0. split; auto. rewrite E1. apply in_or_app; auto. }
  assert (OUT : forall b, In b (removelast (w_boxes x)) -> exists f, In f (map fst ch) /\ fr_break f = Some (WBox (box_with_hyphen b)) /\ fr_txt f = WBox b).
  { intros b I. exists (mkFrag (WBox b) (Some (WBox (box_with_hyphen b))) NoOp). rewrite CF. split; auto. apply in_map_iff. exists b. auto. }
  assert (OK : forall f0, (l = ch ++ [f0]) -> (forall b r, rev (w_boxes x) = b :: r ->
        fr_break (fst f0) = Some (WBox b) /\ (fr_txt (fst f0) = WBox b \/ exists t st, w_tail x = Some t /\ fr_txt (fst f0) = WWord (mkWord [b] (Some t) st))) ->
      (rev (w_boxes x) = [] -> fr_break (fst f0) = None /\ exists t st, w_tail x = Some t /\ fr_txt (fst f0) = WWord (mkWord [] (Some t) st)) ->
      (forall f, In f (map fst l) ->
     (exists b, fr_break f = Some (WBox b) /\ In b (match rev (w_boxes x) with [] => [] | b :: r => map box_with_hyphen (rev r) ++ [b] end)
        /\ (exists b', In b' (w_boxes x) /\ fr_txt f = WBox b' \/ exists t st, w_tail x = Some t /\ fr_txt f = WWord (mkWord [b] (Some t) st)
              /\ In b (w_boxes x)))
     \/ (fr_break f = None /\ exists t st, w_tail x = Some t /\ fr_txt f = WWord (mkWord [] (Some t) st)))
  /\ (forall b, In b (w_boxes x) -> exists f, In f (map fst l)
        /\ (fr_break f = Some (WBox b) \/ fr_break f = Some (WBox (box_with_hyphen b)))
        /\ (fr_txt f = WBox b \/ exists t st, w_tail x = Some t /\ fr_txt f = WWord (mkWord [b] (Some t) st)))).
  { intros f0 -> H1 H0. rewrite map_app. cbn [map]. split.
    - intros f I. apply in_app_or in I as [I|[<-|[]]].
      + destruct (rev (w_boxes x)) as [|b r] eqn:R.
        * rewrite (L0 eq_refl) in CF. cbn in CF. rewrite CF in I. destruct I.
        * left. destruct (INB b r f eq_refl I) as (b0 & A1 & A2 & b' & A3 & A4). exists b0. split; auto. split; auto. exists b'. left; auto.
      + destruct (rev (w_boxes x)) as [|b r] eqn:R; [right; apply H0; auto|]. left. destruct (H1 b r eq_refl) as (A1 & A2). exists b. split; auto.
        split; [apply in_or_app; right; left; auto|]. destruct (LB _ _ eq_refl) as (E1 & _).
        assert (Ib : In b (w_boxes x)) by (rewrite E1; apply in_or_app; right; left; auto).
        exists b. destruct A2 as [A2|(t & st0 & A2 & A3)]; [left; auto|right; eauto 6].
    - intros b I. destruct (rev (w_boxes x)) as [|b0 r] eqn:R; [rewrite (L0 eq_refl) in I; destruct I|].
      destruct (LB _ _ eq_refl) as (E1 & E2). rewrite E1 in I. apply in_app_or in I as [I|[<-|[]]].
      + rewrite <- E2 in I. destruct (OUT b I) as (f & A1 & A2 & A3). exists f. split; [apply in_or_app; auto|]. auto.
      + destruct (H1 b0 r eq_refl) as (A1 & A2). exists (fst f0). split; [apply in_or_app; right; left; auto|]. auto. }
  assert (HT : (exists t, w_tail x = Some t) \/ w_tail x = None) by (destruct (w_tail x); eauto).
  destruct HT as [(t & T)|T]; rewrite T in H.
  - apply Ok_inj in H; injection H as <- _ _ _. refine (OK _ eq_refl _ _).
    + intros b r R. rewrite R. cbn. split; auto. right. eauto.
    + intros R. rewrite R. cbn. eauto.
  - assert (HR : exists b r, rev (w_boxes x) = b :: r) by (destruct (rev (w_boxes x)); [discriminate|eauto]).
    destruct HR as (b & r & R). rewrite R in H. apply Ok_inj in H; injection H as <- _ _ _. refine (OK _ eq_refl _ _); [|congruence].
    intros b0 r0 R'. rewrite R in R'. inversion R'; subst. cbn. auto.
Qed.
Lemma words_frags just ws : Forall flat ws -> forall wd st sh l, words_boxes just ws wd st sh = Ok l ->
  (forall f, In f (map fst l) -> exists w, In w ws /\
     ((exists b, fr_break f = Some (WBox b) /\ In b (end_forms w)
        /\ (exists b', In b' (wl_boxes w) /\ fr_txt f = WBox b' \/ exists t st, wl_tail w = Some t /\ fr_txt f = WWord (mkWord [b] (Some t) st)
              /\ In b (wl_boxes w)))
     \/ (fr_break f = None /\ exists t st, wl_tail w = Some t /\ fr_txt f = WWord (mkWord [] (Some t) st))))
  /\ (forall w b, In w ws -> In b (wl_boxes w) -> exists f, In f (map fst l)
        /\ (fr_break f = Some (WBox b) \/ fr_break f = Some (WBox (box_with_hyphen b)))
        /\ (fr_txt f = WBox b \/ exists t st, wl_tail w = Some t /\ fr_txt f = WWord (mkWord [b] (Some t) st))).
Proof.
  induction 1 as [|w ws F _ IH]; intros wd st sh l H; cbn in H.
  - inversion H; subst. split; [intros f []|intros w b []].
  - apply bind_ok in H as ([[[l1 wd1] st1] sh1] & E1 & H). apply bind_ok in H as (l2 & E2 & H). inversion H; subst l.
    destruct (word_frags _ _ _ _ _ _ _ _ _ F E1) as (A & B). destruct (IH _ _ _ _ E2) as (C & D). rewrite map_app. split.
    + intros f I. apply in_app_or in I as [I|I].
      * exists w. split; [left; auto|]. apply A, I.
      * destruct (C f I) as (w' & Iw & X). exists w'. split; [right; auto|exact X].
    + intros w' b [<-|Iw] Ib.
      * destruct (B b Ib) as (f & I & X). exists f. split; [apply in_or_app; auto|exact X].
      * destruct (D w' b Iw Ib) as (f & I & X). exists f. split; [apply in_or_app; auto|exact X].
Qed.
End Generic.

Section Exact.
Context {ENV : Env QcNum}.
Open Scope Qc_scope.
Lemma pw_ok (ws : list (@wordlike QcNum)) : paragraph_words ws -> Forall wl_ok ws.
Proof.
  induction 1 as [ps st cmd ws ex E|ws x ws' _ IH E]; [eapply into_words_ok; eauto|].
  unfold indent_first in E. destruct ws as [|w r]; [inversion E; constructor|]. apply bind_ok in E as (w' & E1 & E). inversion E; subst.
  inversion IH; subst. constructor; auto. eapply wl_indent_ok; eauto.
Qed.
Lemma roomy_cols (cols : nat -> @num QcNum * @num QcNum) (lead : Qc) : 0 < lead -> (forall i, 0 <= snd (cols i)) ->
  (forall i, (0 <= @nfloordiv QcNum (snd (cols i)) lead)%Z) /\ @neqb QcNum lead n0 = false.
Proof.
  intros L H. split.
  - intros i. apply floor_nonneg; auto. change (Q2Qc (inject_Z 0)) with 0. rewrite Qcmult_0_l. apply H.
  - apply Qceqb_neq. intros ->. discriminate L.
Qed.
Lemma into_sums ws just frags boxes : Forall wl_ok ws -> Forall flat ws -> into_boxes ws just = Ok (frags, boxes) ->
  exists full wd' st' sh', frags = map fst full /\ boxes = map snd full
    /\ words_boxes just ws n0 (first_stretch just ws) n0 = Ok full
    /\ sums just 0 (first_stretch just ws) 0 full wd' st' sh'.
Proof.
  intros O F H. unfold into_boxes in H. apply rmap_inv in H as (full & E & H). inversion H; subst.
  destruct (words_boxes_sums just ws O F _ _ _ _ E) as (a & b & c & S). exists full, a, b, c. auto.
Qed.
Lemma end_form_ok w b : wl_ok w -> In b (end_forms w) -> box_ok b.
Proof.
  intros O. assert (B : Forall box_ok (wl_boxes w)). { induction w as [b0|x|w IH c]; cbn in *; auto. apply O. }
  unfold end_forms. destruct (rev (wl_boxes w)) as [|b0 r] eqn:R; [intros []|].
  assert (E : wl_boxes w = rev r ++ [b0]) by (rewrite <- (rev_involutive (wl_boxes w)), R; reflexivity).
  rewrite E in B. apply Forall_app in B as (B1 & B2). intros I. apply in_app_or in I as [I|[<-|[]]].
  - apply in_map_iff in I as (x & <- & I). apply box_with_hyphen_ok. rewrite Forall_forall in B1. auto.
  - inversion B2; auto.
Qed.
Lemma flat_stretchable (w : wordlike) : wl_ok w -> (forall t, wl_tail w = Some t -> ts_size t <> 0) -> stretchable w.
Proof.
  induction w as [b|x|w IH c]; cbn; intros O H; auto. destruct O as (_ & O). intros T. destruct (w_tail x) as [t|]; [|congruence].
  destruct O as (_ & O). apply Qceqb_neq. rewrite <- O. auto.
Qed.
Lemma frags_stretchable just ws wd st sh full : Forall flat ws -> Forall wl_ok ws -> (forall w t, In w ws -> wl_tail w = Some t -> ts_size t <> 0) ->
  words_boxes just ws wd st sh = Ok full -> Forall frag_ok (map fst full) -> Forall frag_stretchable (map fst full).
Proof.
  intros F O H E FO. destruct (words_frags just ws F _ _ _ _ E) as (A & _). apply Forall_forall. intros f I.
  rewrite Forall_forall in FO. specialize (FO f I) as (FO1 & FO2). destruct (A f I) as (w & Iw & X).
  assert (T : forall t bs s, wl_tail w = Some t -> fr_txt f = WWord (mkWord bs (Some t) s) -> stretchable (fr_txt f)).
  { intros t bs s E1 E2. rewrite E2 in *. apply flat_stretchable; auto. cbn. intros t' [= <-]. eauto. }
  destruct X as [(b & E1 & _ & b' & X)|(E1 & t & s & E2 & E3)].
  - split; [|intros w' E'; rewrite E1 in E'; inversion E'; constructor]. destruct X as [(_ & ->)|(t & s & E2 & E3 & _)]; [constructor|eauto].
  - split; [eauto|]. rewrite E1. discriminate.
Qed.
Lemma lay_total frags boxes ragged (tolerance : Qc) (P : @params QcNum) q brs :
  boxes <> [] -> List.length frags = List.length boxes -> Forall frag_stretchable frags ->
  find_breaks boxes (line_length q) ragged tolerance P = Ok brs ->
  exists ls, lay frags boxes ragged tolerance P q = Ok ls /\ ls <> [].
Proof.
  intros NE L FS E. unfold lay. rewrite E. cbn [bind]. unfold find_breaks in E. destruct boxes as [|b0 bs]; [congruence|].
  apply try_fit_ok in E as (t & _ & E). eapply into_lines_total; eauto.
Qed.
(** a fragment is on some line *)
Lemma rows_cover (full : list (@fragment QcNum * @kbox QcNum)) width ragged t k i fs ls : rows (map snd full) width ragged t k i fs ls ->
  forall a b, full = a ++ b -> List.length a = i -> fs = map fst b -> forall f, In f fs ->
  exists k a init last rest q, full = a ++ init ++ last :: rest
    /\ line_ratio (map snd full) width ragged k (List.length a) (List.length a + S (List.length init)) q
    /\ Qcltb q (Q2Qc (-1)) = false /\ (In f (map fst init) \/ f = fst last).
Proof.
  induction 1 as [k i sl l q adj NE LE LR EA LT ML RC|k i sl rest l ls q NE NR LR LT WI ML RC R IH];
    intros a b EF LA EB f If.
  - destruct (@exists_last _ b) as (init & last & Eb). { intros ->. apply NE. rewrite EB. reflexivity. }
    assert (LL : List.length (map snd full) = (List.length a + S (List.length init))%nat).
    { rewrite EF, Eb, map_length, !app_length. cbn. lia. }
    exists k, a, init, last, [], q. split; [rewrite EF, Eb; reflexivity|]. split; [rewrite <- LL, LA; exact LR|].
    split; [apply nmin_lt; rewrite <- EA; exact LT|]. rewrite EB, Eb, map_app in If. apply in_app_or in If as [If|[<-|[]]]; auto.
  - assert (X : exists b1 b2, b = b1 ++ b2 /\ sl = map fst b1 /\ rest = map fst b2).
    { exists (firstn (List.length sl) b), (skipn (List.length sl) b). split; [symmetry; apply firstn_skipn|].
      rewrite <- firstn_map, <- skipn_map, <- EB. split; [rewrite firstn_app, Nat.sub_diag, firstn_all, firstn_O, app_nil_r; reflexivity|].
      rewrite skipn_app, Nat.sub_diag, skipn_all. reflexivity. }
    destruct X as (b1 & b2 & Eb & E1 & E2).
    apply in_app_or in If as [If|If].
    + destruct (@exists_last _ b1) as (init & last & Eb1). { intros ->. apply NE. rewrite E1. reflexivity. }
      assert (L1 : List.length sl = S (List.length init)). { rewrite E1, Eb1, map_length, app_length. cbn. lia. }
      exists k, a, init, last, b2, q. split; [rewrite EF, Eb, Eb1, <- app_assoc; reflexivity|]. split; [rewrite <- L1, LA; exact LR|].
      split; [exact LT|]. rewrite E1, Eb1, map_app in If. apply in_app_or in If as [If|[<-|[]]]; auto.
    + eapply IH with (a := a ++ b1); eauto.
      * rewrite EF, Eb, app_assoc. reflexivity.
      * rewrite app_length, LA, E1, map_length. reflexivity.
Qed.
(** the lines with the pieces of text they were made from *)
Lemma rows_pieces just (full : list (@fragment QcNum * @kbox QcNum)) width ragged t st0 wd' st' sh' k i fs ls :
  sums just 0 st0 0 full wd' st' sh' -> Forall good_frag (map fst full) ->
  rows (map snd full) width ragged t k i fs ls ->
  forall a b, full = a ++ b -> List.length a = i -> fs = map fst b ->
  exists pieces, measured_all (concat pieces) = measured_all (map fr_txt fs)
    /\ Forall2 (fun p l => is_line_of (measured_all p) (measured_all (ol_words l)) /\ ol_width l = all_advance p) pieces ls.
Proof.
  intros SU GF.
  assert (MF : forall l : list (@fragment QcNum), measured_all (map frag_word l) = measured_all (map fr_txt l)).
  { clear. induction l as [|x l IH]; cbn; auto. unfold frag_word at 1. rewrite measured_with_cmd. f_equal; auto. }
  assert (ONE : forall a init last rest adj l, full = a ++ init ++ last :: rest ->
     made_line ragged (map fst init ++ [fst last]) adj l ->
     recorded (map snd full) (List.length a) (List.length a + S (List.length init)) l ->
     is_line_of (measured_all (map frag_word (map fst init ++ [fst last]))) (measured_all (ol_words l))
     /\ ol_width l = all_advance (map frag_word (map fst init ++ [fst last]))).
  { intros a init last rest adj l EF ML RC. rewrite (recorded_width _ _ _ _ _ _ _ _ _ _ _ SU EF RC).
    assert (FO := part_of _ _ _ _ _ _ EF (sums_frag_ok _ _ _ _ _ _ _ _ SU)). assert (GF' := part_of _ _ _ _ _ _ EF GF). split.
    - rewrite MF. assert (H := ML). destruct ML as (ws & LW & _). destruct (alike_lines _ _ (made_line_alike _ _ _ _ _ LW H)) as (-> & _).
      apply (line_words_spec _ _ GF' LW).
    - rewrite (frags_advance _ FO), total_app, total_cons, total_nil, Qcplus_0_r. reflexivity. }
  induction 1 as [k i sl l q adj NE LE LR EA LT ML RC|k i sl rest l ls q NE NR LR LT WI ML RC R IH]; intros a b EF LA EB.
  - destruct (@exists_last _ b) as (init & last & Eb). { intros ->. apply NE. rewrite EB. reflexivity. }
    assert (LL : List.length (map snd full) = (List.length a + S (List.length init))%nat).
    { rewrite EF, Eb, map_length, !app_length. cbn. lia. }
    assert (ES : sl = map fst init ++ [fst last]) by (rewrite EB, Eb, map_app; reflexivity).
    rewrite LL, <- LA in RC. rewrite ES in ML. exists [map frag_word sl]. split; [cbn [concat]; rewrite app_nil_r; apply MF|].
    constructor; [|constructor]. rewrite ES. eapply ONE; eauto. rewrite EF, Eb. reflexivity.
  - assert (X : exists b1 b2, b = b1 ++ b2 /\ sl = map fst b1 /\ rest = map fst b2).
    { exists (firstn (List.length sl) b), (skipn (List.length sl) b). split; [symmetry; apply firstn_skipn|].
      rewrite <- firstn_map, <- skipn_map, <- EB. split; [rewrite firstn_app, Nat.sub_diag, firstn_all, firstn_O, app_nil_r; reflexivity|].
      rewrite skipn_app, Nat.sub_diag, skipn_all. reflexivity. }
    destruct X as (b1 & b2 & Eb & E1 & E2).
    destruct (@exists_last _ b1) as (init & last & Eb1). { intros ->. apply NE. rewrite E1. reflexivity. }
    assert (L1 : List.length sl = S (List.length init)). { rewrite E1, Eb1, map_length, app_length. cbn. lia. }
    assert (ES : sl = map fst init ++ [fst last]) by (rewrite E1, Eb1, map_app; reflexivity).
    destruct (IH (a ++ b1) b2) as (ps & P1 & P2); auto.
    { rewrite EF, Eb, app_assoc. reflexivity. } { rewrite app_length, LA, E1, map_length. reflexivity. }
    exists (map frag_word sl :: ps). split; [cbn [concat]; rewrite map_app, !measured_all_app, MF, P1; reflexivity|].
    constructor; auto. rewrite <- LA, L1 in RC. rewrite ES in ML |- *. eapply (ONE a init last b2); eauto. rewrite EF, Eb, Eb1, <- app_assoc. reflexivity.
Qed.
End Exact.

(** ** C43. *)
(** Ragged text: if every fragment, with the hyphen it gets at the end of a line,
    fits every column, the layout succeeds. *)
Theorem C43_ragged_succeeds : forall (ENV : Env QcNum) ws cols allow_empty (lead : Qc) avoid (tolerance : Qc) P,
  all_split -> paragraph_words ws -> ws <> [] ->
  (0 < lead)%Qc -> (0 < tolerance)%Qc -> (forall i, 0 <= fst (cols i) /\ 0 <= snd (cols i))%Qc ->
  (forall w, In w ws -> 0 < st_size (wl_state w) /\ 0 < spacewidth (st_font (wl_state w)))%Qc ->
  (forall w t, In w ws -> wl_tail w = Some t -> ts_size t <> 0%Qc) ->
  (forall w b i, In w ws -> In b (end_forms w) -> (box_advance b <= fst (cols i))%Qc) ->
  exists n, forall fuel, n <= fuel ->
    exists out, opt_shape fuel ws cols allow_empty lead avoid true tolerance P = Ok out.
Proof.
  intros ENV ws cols ae lead av tolerance P AS PW NE LP TP CP SP TS FIT.
  assert (FL := pw_flat _ PW). assert (OK := pw_ok _ PW). assert (HT := pw_has_text _ AS PW).
  destruct (roomy_cols cols lead LP (fun i => proj2 (CP i))) as (RM & LD).
  destruct (words_boxes_total (negb true) ws FL HT n0 (first_stretch (negb true) ws) n0) as (full & E).
  assert (IB : into_boxes ws (negb true) = Ok (map fst full, map snd full)) by (unfold into_boxes; rewrite E; reflexivity).
  destruct (into_boxes_good _ _ _ _ FL IB) as (_ & _ & _ & NB & _). specialize (NB NE).
  destruct (into_sums _ _ _ _ OK FL IB) as (full' & wd' & st' & sh' & _ & _ & E' & SU). rewrite E in E'. inversion E'; subst full'; clear E'.
  assert (FO := sums_frag_ok _ _ _ _ _ _ _ _ SU).
  refine (opt_shape_total ws cols ae lead av true tolerance P _ _ RM LD IB NB _).
  intros d q Q.
  assert (U : (0 < first_stretch (negb true) ws)%Qc).
  { destruct ws as [|w0 r]; [congruence|]. destruct (SP w0 (or_introl eq_refl)) as (S1 & S2). cbn [negb first_stretch].
    change (0 < st_size (wl_state w0) * (spacewidth (st_font (wl_state w0)) / Q2Qc (inject_Z 1000)) * Q2Qc (inject_Z 3))%Qc.
    assert (X : forall a b c : Qc, (0 < a -> 0 < b -> 0 < c -> 0 < a * b * c)%Qc).
    { intros a b c A B C. rewrite <- (Qcmult_0_l c). apply Qcmult_lt_compat_r; auto. rewrite <- (Qcmult_0_l b). apply Qcmult_lt_compat_r; auto. }
    apply X; auto; [|reflexivity]. rewrite Qcdiv_def. rewrite <- (Qcmult_0_l (/ Q2Qc (inject_Z 1000))). apply Qcmult_lt_compat_r; [reflexivity|exact S2]. }
  destruct (ragged_breaks_total full (line_length q) (first_stretch (negb true) ws) wd' st' sh' tolerance P) as (brs & B); auto.
  - intros ->. apply NB. reflexivity.
  - intros f k I. unfold line_length. destruct Q as (_ & QC & _). rewrite QC. set (j := (d + line_col q k)%nat). clearbody j.
    destruct (words_frags _ ws FL _ _ _ _ E) as (A & _). destruct (A f I) as (w & Iw & [(b & E1 & Ib & _)|(E1 & _)]); unfold bw; rewrite E1; [|apply CP].
    cbn [wl_width]. rewrite box_width_ok; [eauto|]. eapply end_form_ok; eauto. rewrite Forall_forall in OK. auto.
  - eapply lay_total; eauto; [rewrite !map_length; reflexivity|]. eapply frags_stretchable; eauto.
Qed.
Print Assumptions C43_ragged_succeeds.
(** Justified text always succeeds (overfull lines are accepted in the last resort). *)
Theorem C43_justified_succeeds : forall (ENV : Env QcNum) ws cols allow_empty (lead : Qc) avoid (tolerance : Qc) P,
  all_split -> paragraph_words ws -> ws <> [] ->
  (0 < lead)%Qc -> (0 < tolerance)%Qc -> (forall i, 0 < fst (cols i) /\ 0 <= snd (cols i))%Qc ->
  (forall w t, In w ws -> wl_tail w = Some t -> ts_size t <> 0%Qc) ->
  (forall w b, In w ws -> In b (end_forms w) -> (0 <= box_advance b)%Qc) ->
  exists n, forall fuel, n <= fuel ->
    exists out, opt_shape fuel ws cols allow_empty lead avoid false tolerance P = Ok out.
Proof.
  intros ENV ws cols ae lead av tolerance P AS PW NE LP TP CP TS FIT.
  assert (FL := pw_flat _ PW). assert (OK := pw_ok _ PW). assert (HT := pw_has_text _ AS PW).
  destruct (roomy_cols cols lead LP (fun i => proj2 (CP i))) as (RM & LD).
  destruct (words_boxes_total (negb false) ws FL HT n0 (first_stretch (negb false) ws) n0) as (full & E).
  assert (IB : into_boxes ws (negb false) = Ok (map fst full, map snd full)) by (unfold into_boxes; rewrite E; reflexivity).
  destruct (into_boxes_good _ _ _ _ FL IB) as (_ & _ & _ & NB & _). specialize (NB NE).
  destruct (into_sums _ _ _ _ OK FL IB) as (full' & wd' & st' & sh' & _ & _ & E' & SU). rewrite E in E'. inversion E'; subst full'; clear E'.
  assert (FO := sums_frag_ok _ _ _ _ _ _ _ _ SU).
  refine (opt_shape_total ws cols ae lead av false tolerance P _ _ RM LD IB NB _).
  intros d q Q.
  destruct (just_breaks_total full (line_length q) wd' st' sh' tolerance P) as (brs & B); auto.
  - intros ->. apply NB. reflexivity.
  - intros k. unfold line_length. destruct Q as (_ & QC & _). rewrite QC. apply CP.
  - intros f I. destruct (words_frags _ ws FL _ _ _ _ E) as (A & _). destruct (A f I) as (w & Iw & [(b & E1 & Ib & _)|(E1 & _)]); unfold bw; rewrite E1; [|apply Qcle_refl].
    cbn [wl_width]. rewrite box_width_ok; [eauto|]. eapply end_form_ok; eauto. rewrite Forall_forall in OK. auto.
  - eapply lay_total; eauto; [rewrite !map_length; reflexivity|]. eapply frags_stretchable; eauto.
Qed.
Print Assumptions C43_justified_succeeds.
(** Ragged text with a fragment wider than every column: RuntimeError. *)
Theorem C43_ragged_fails : forall (ENV : Env QcNum) fuel ws cols allow_empty (lead : Qc) avoid (tolerance : Qc) P w0 b0,
  all_split -> paragraph_words ws ->
  (0 < lead)%Qc -> (forall i, 0 <= fst (cols i) /\ 0 <= snd (cols i))%Qc ->
  (forall w, In w ws -> 0 < st_size (wl_state w) /\ 0 < spacewidth (st_font (wl_state w)))%Qc ->
  (forall w t, In w ws -> wl_tail w = Some t -> ts_size t <> 0%Qc) ->
  (forall w b, In w ws -> In b (end_forms w) \/ In b (wl_boxes w) -> (0 <= box_advance b)%Qc) ->
  (forall w t, In w ws -> wl_tail w = Some t -> (0 <= tspace_width t)%Qc) ->
  In w0 ws -> In b0 (wl_boxes w0) ->
  (forall i, fst (cols i) < box_advance b0 /\ fst (cols i) < box_advance (box_with_hyphen b0))%Qc ->
  opt_shape fuel ws cols allow_empty lead avoid true tolerance P = Err ERuntime.
Proof.
  intros ENV fuel ws cols ae lead av tolerance P w0 b0 AS PW LP CP SP TS BN TN Iw0 Ib0 WIDE.
  assert (NE : ws <> []) by (intros ->; destruct Iw0).
  assert (FL := pw_flat _ PW). assert (OK := pw_ok _ PW). assert (HT := pw_has_text _ AS PW).
  destruct (roomy_cols cols lead LP (fun i => proj2 (CP i))) as (RM & LD).
  destruct (words_boxes_total (negb true) ws FL HT n0 (first_stretch (negb true) ws) n0) as (full & E).
  assert (IB : into_boxes ws (negb true) = Ok (map fst full, map snd full)) by (unfold into_boxes; rewrite E; reflexivity).
  destruct (into_boxes_good _ _ _ _ FL IB) as (_ & _ & _ & NB & _). specialize (NB NE).
  destruct (into_sums _ _ _ _ OK FL IB) as (full' & wd' & st' & sh' & _ & _ & E' & SU). rewrite E in E'. inversion E'; subst full'; clear E'.
  assert (FO := sums_frag_ok _ _ _ _ _ _ _ _ SU).
  destruct (words_frags _ ws FL _ _ _ _ E) as (A & CV).
  assert (OKw : forall w, In w ws -> wl_ok w). { rewrite Forall_forall in OK. exact OK. }
  assert (OKb : forall w b, In w ws -> In b (wl_boxes w) -> box_ok b).
  { intros w b Iw Ib. specialize (OKw w Iw). clear -OKw Ib. induction w as [bb|x|w IH c]; cbn in *; auto.
    - destruct Ib as [<-|[]]; auto.
    - destruct OKw as (X & _). rewrite Forall_forall in X. auto. }
  assert (BW : forall f, In f (map fst full) -> (0 <= bw f)%Qc).
  { intros f I. destruct (A f I) as (w & Iw & [(b & E1 & Ib & _)|(E1 & _)]); unfold bw; rewrite E1; [|apply Qcle_refl].
    cbn [wl_width]. rewrite box_width_ok; [eapply BN; eauto|]. eapply end_form_ok; eauto. }
  assert (TWW : forall b t s, tw (mkFrag (WWord (mkWord [b] (Some t) s)) None NoOp) = (box_width b + tspace_width t)%Qc).
  { intros b t s. unfold tw. cbn [fr_txt wl_width]. unfold word_width, word_pruned_width. cbn [map w_boxes w_tail]. rewrite nsum1. reflexivity. }
  assert (TWF : forall f b t s, fr_txt f = WWord (mkWord [b] (Some t) s) -> tw f = (box_width b + tspace_width t)%Qc).
  { intros f b t s H. rewrite <- (TWW b t s). unfold tw. rewrite H. reflexivity. }
  assert (TWP : forall f, In f (map fst full) -> (0 <= tw f)%Qc).
  { intros f I. destruct (A f I) as (w & Iw & [(b & E1 & Ib & b' & [(Ib' & X)|(t & s & T & X & Ib')])|(E1 & t & s & T & X)]).
    - unfold tw. rewrite X. cbn [wl_width]. rewrite box_width_ok by eauto. eauto.
    - rewrite (TWF _ _ _ _ X). apply (Qcplus_le_compat 0 _ 0); [|eauto]. rewrite box_width_ok by eauto. eauto.
    - unfold tw. rewrite X. cbn [wl_width]. unfold word_width, word_pruned_width. cbn [map w_boxes w_tail].
      change (0 <= 0 + tspace_width t)%Qc. rewrite Qcplus_0_l. eauto. }
  destruct (CV w0 b0 Iw0 Ib0) as (f0 & If0 & BR & TX).
  assert (UW : forall i, (fst (cols i) < tw f0 /\ fst (cols i) < bw f0)%Qc).
  { intros i. destruct (WIDE i) as (W1 & W2). assert (BO := OKb _ _ Iw0 Ib0). rewrite <- (box_width_ok _ BO) in W1.
    rewrite <- (box_width_ok _ (box_with_hyphen_ok _ BO)) in W2. split.
    - destruct TX as [TX|(t & s & T & TX)]; [unfold tw; rewrite TX; exact W1|]. rewrite (TWF _ _ _ _ TX).
      eapply Qclt_le_trans; [exact W1|]. rewrite <- (Qcplus_0_r (box_width b0)) at 1. apply Qcplus_le_compat; [apply Qcle_refl|eauto].
    - unfold bw. destruct BR as [-> | ->]; auto. }
  assert (TOT : forall (g : @fragment QcNum -> Qc) l, (forall f, In f l -> 0 <= g f)%Qc -> (0 <= total g l)%Qc /\ forall f, In f l -> (g f <= total g l)%Qc).
  { clear. intros g l. induction l as [|x l IH]; intros H; [split; [apply Qcle_refl|intros f []]|].
    destruct (IH (fun f I => H f (or_intror I))) as (I1 & I2). rewrite total_cons. pose proof (H x (or_introl eq_refl)) as Hx. split.
    - apply (Qcplus_le_compat 0 _ 0); auto.
    - intros f [<-|If].
      + rewrite <- (Qcplus_0_r (g x)) at 1. apply Qcplus_le_compat; [apply Qcle_refl|auto].
      + rewrite <- (Qcplus_0_l (g f)). apply Qcplus_le_compat; auto. }
  assert (U : (0 < first_stretch (negb true) ws)%Qc).
  { destruct ws as [|w1 r]; [congruence|]. destruct (SP w1 (or_introl eq_refl)) as (S1 & S2). cbn [negb first_stretch].
    change (0 < st_size (wl_state w1) * (spacewidth (st_font (wl_state w1)) / Q2Qc (inject_Z 1000)) * Q2Qc (inject_Z 3))%Qc.
    assert (X : forall a b c : Qc, (0 < a -> 0 < b -> 0 < c -> 0 < a * b * c)%Qc).
    { intros a b c AA B C. rewrite <- (Qcmult_0_l c). apply Qcmult_lt_compat_r; auto. rewrite <- (Qcmult_0_l b). apply Qcmult_lt_compat_r; auto. }
    apply X; auto; [|reflexivity]. rewrite Qcdiv_def. rewrite <- (Qcmult_0_l (/ Q2Qc (inject_Z 1000))). apply Qcmult_lt_compat_r; [reflexivity|exact S2]. }
  assert (FAIL : forall d q, queue_ok cols lead ae d q -> lay (map fst full) (map snd full) true tolerance P q = Err ERuntime).
  { intros d q Q. destruct (find_breaks (map snd full) (line_length q) true tolerance P) as [brs|e] eqn:FB.
    - exfalso. destruct (lay_total (map fst full) (map snd full) true tolerance P q brs) as (ls & LY & _); auto.
      { rewrite !map_length. reflexivity. } { eapply frags_stretchable; eauto. }
      apply lay_rows in LY as (t & _ & R); [|rewrite !map_length; reflexivity].
      destruct (rows_cover full _ _ _ _ _ _ _ R [] full eq_refl eq_refl eq_refl f0 If0) as (k & a & init & last & rest & r & EF & LR & LT & PL).
      destruct (line_ratio_sums false true (line_length q) full a init rest last _ wd' st' sh' k r SU ltac:(discriminate) EF LR) as (f & RR).
      assert (FITS := ragged_fits _ _ _ _ _ RR LT).
      assert (SUB : forall f, In f (map fst init) \/ f = fst last -> In f (map fst full)).
      { intros g Hg. rewrite EF, !map_app. cbn [map]. apply in_or_app. right. apply in_or_app. destruct Hg as [Hg| ->]; [left; auto|right; left; auto]. }
      destruct (TOT tw (map fst init)) as (T1 & T2). { intros g Hg. apply TWP, SUB. auto. }
      assert (LL : exists j, line_length q k = fst (cols j)). { unfold line_length. destruct Q as (_ & QC & _). rewrite QC. eauto. }
      destruct LL as (j & LL). rewrite LL in FITS. destruct (UW j) as (U1 & U2).
      assert (BL : (0 <= bw (fst last))%Qc) by (apply BW, SUB; auto).
      unfold natural in FITS. destruct PL as [PL| ->].
      + specialize (T2 f0 PL). apply (Qclt_not_le _ _ U1). eapply Qcle_trans; [exact T2|]. eapply Qcle_trans; [|exact FITS].
        rewrite <- (Qcplus_0_r (total tw (map fst init))) at 1. apply Qcplus_le_compat; [apply Qcle_refl|exact BL].
      + apply (Qclt_not_le _ _ U2). eapply Qcle_trans; [|exact FITS]. rewrite <- (Qcplus_0_l (bw (fst last))) at 1. apply Qcplus_le_compat; [exact T1|apply Qcle_refl].
    - unfold lay. rewrite FB. cbn [bind]. f_equal. unfold find_breaks in FB. destruct (map snd full) eqn:EM; [congruence|]. rewrite <- EM in *.
      clear -FB SU U. revert FB. induction (@tolerances QcNum tolerance) as [|t ts IH]; cbn; [congruence|].
      destruct (optimum_fit (line_length q) t P true (map snd full)) as [x|e'] eqn:F; [discriminate|].
      rewrite (ragged_no_err full (line_length q) _ wd' st' sh' P SU U t e' F). exact IH. }
  unfold opt_shape. rewrite IB. cbn [bind]. rewrite LD.
  set (q0 := @queue_new QcNum cols lead ae).
  assert (X : exists d q, (if (q_counts q0 O =? 0)%Z then ([[]], @queue_new QcNum (fun i => cols (S i)) lead false) else ([], q0)) = (repeat (@nil (@oline QcNum)) d, q)
     /\ queue_ok cols lead ae d q).
  { destruct (q_counts q0 O =? 0)%Z eqn:Z; cbn [q0 queue_new q_counts count_to] in Z.
    - exists 1%nat, (@queue_new QcNum (fun i => cols (S i)) lead false). split; auto. apply queue_next_ok; auto.
    - exists O, q0. split; auto. apply queue_new_ok; auto.
      pose proof (room_nonneg cols lead ae RM 0). pose proof (count_incr cols lead ae RM 0). cbn [before count_to] in *. lia. }
  destruct X as (d & q & -> & Q). destruct (map snd full) as [|b1 bs] eqn:EM; [congruence|]. rewrite (FAIL d q Q). reflexivity.
Qed.
Print Assumptions C43_ragged_fails.
Definition ex_par : list wordlike := ex_parse [(NoOp, str_of "aBcDe fgHi jk")].
Lemma ex_parse_pw ps : is_ok (into_words ps ex_state) = true -> paragraph_words (ex_parse ps).
Proof.
  intros H. apply (ok_or_eq (NoOp, [], false)) in H. unfold ex_parse. destruct (ok_or _ _) as [[c ws] ex]. eapply pw_parsed; eauto.
Qed.
Definition oshow (r : res (list (list (@oline QcNum)))) : res (list (list str)) :=
  rmap (map (map (fun l => map fst (measured_all (ol_words l))))) r.
Definition owidths (r : res (list (list (@oline QcNum)))) : res (list (list Q)) :=
  rmap (map (map (fun l => this (all_advance (ol_words l))))) r.
(** The words of the example meet the hypotheses: size 10, each character 5 wide;
    the widest fragment is "Bc-", 15 wide. *)
Lemma ex_facts : paragraph_words ex_par /\ ex_par <> []
  /\ (forall w, In w ex_par -> 0 < st_size (wl_state w) /\ 0 < spacewidth (st_font (wl_state w)))%Qc
  /\ (forall w t, In w ex_par -> wl_tail w = Some t -> ts_size t <> 0%Qc /\ (0 <= tspace_width t)%Qc)
  /\ (forall w b, In w ex_par -> In b (end_forms w) \/ In b (wl_boxes w) -> (0 <= box_advance b)%Qc /\ (box_advance b <= Q2Qc 15)%Qc).
Proof.
  split; [apply ex_parse_pw; vm_compute; reflexivity|].
  split; [intros C; apply (f_equal (@List.length _)) in C; vm_compute in C; discriminate C|].
  assert (A : forallb (fun w => Qcltb 0 (st_size (wl_state w)) && Qcltb 0 (@spacewidth QcNum ex_words (st_font (wl_state w)))) ex_par = true) by (vm_compute; reflexivity).
  assert (B : forallb (fun w => match wl_tail w with Some t => negb (Qceqb (ts_size t) 0) && Qcleb 0 (tspace_width t) | None => true end) ex_par = true) by (vm_compute; reflexivity).
  assert (C : forallb (fun w => forallb (fun b => Qcleb 0 (box_advance b) && Qcleb (box_advance b) (Q2Qc 15)) (end_forms w ++ wl_boxes w)) ex_par = true) by (vm_compute; reflexivity).
  rewrite forallb_forall in A, B, C. split; [|split].
  - intros w I. apply A in I. apply andb_true_iff in I as (I1 & I2). split; apply Qcltb_lt; auto.
  - intros w t I T. apply B in I. rewrite T in I. apply andb_true_iff in I as (I1 & I2). split; [|apply Qcleb_le, I2].
    intros E. rewrite E in I1. discriminate I1.
  - intros w b I Ib. apply C in I. rewrite forallb_forall in I. assert (Ib' : In b (end_forms w ++ wl_boxes w)) by (apply in_or_app; tauto).
    apply I in Ib'. apply andb_true_iff in Ib' as (I1 & I2). split; apply Qcleb_le; auto.
Qed.
(** in a column 15 wide every fragment fits; in one 8 wide "Bc" does not *)
Example C43_example : all_split
  /\ oshow (opt_shape 50 ex_par (ex_cols 15 100) false (nZ 10) true true (nZ 1) ex_params)
     = Ok [[str_of "a-"; str_of "Bc-"; str_of "De"; str_of "fg-"; str_of "Hi"; str_of "jk"]]
  /\ opt_shape 50 ex_par (ex_cols 8 100) false (nZ 10) true true (nZ 1) ex_params = Err ERuntime
  /\ is_ok (opt_shape 50 ex_par (ex_cols 8 100) false (nZ 10) true false (nZ 1) ex_params) = true.
Proof. split; [apply ex_splits|]. repeat split; vm_compute; reflexivity. Qed.

(** ** C44. *)
Theorem C44_ragged_lines_fit : forall (ENV : Env QcNum) fuel ws cols allow_empty (lead : Qc) avoid tolerance P out,
  paragraph_words ws -> ws <> [] -> (0 < lead)%Qc -> (forall i, 0 <= snd (cols i))%Qc ->
  opt_shape fuel ws cols allow_empty lead avoid true tolerance P = Ok out ->
  Forall (fun wl => all_advance (ol_words (snd wl)) <= fst wl)%Qc (placed cols out).
Proof.
  intros ENV fuel ws cols ae lead av tolerance P out PW NE LP CP E.
  assert (FL := pw_flat _ PW). assert (OK := pw_ok _ PW).
  destruct (roomy_cols cols lead LP CP) as (RM & _).
  destruct (out_lines _ _ _ _ _ _ _ _ _ _ RM FL NE E) as (full & width & t & ls & WB & R & PL & _).
  assert (IB : into_boxes ws (negb true) = Ok (map fst full, map snd full)) by (unfold into_boxes; rewrite WB; reflexivity).
  destruct (into_boxes_good _ _ _ _ FL IB) as (_ & _ & GF & _).
  destruct (words_boxes_sums _ ws OK FL _ _ _ _ WB) as (wd' & st' & sh' & SU).
  rewrite PL. apply Forall_forall. intros (w & l) I. apply In_nth_error in I as (m & N).
  destruct (nth_combine width ls O m _ N) as (N1 & N2). cbn [fst snd] in *. subst w.
  eapply ragged_lines; eauto.
Qed.
Print Assumptions C44_ragged_lines_fit.
Definition par_ragged (w h : Z) (ae av : bool) := opt_shape 50 ex_par (ex_cols w h) ae (nZ 10) av true (nZ 1) ex_params.
Definition par_just (w h : Z) (ae av : bool) := opt_shape 50 ex_par (ex_cols w h) ae (nZ 10) av false (nZ 1) ex_params.
Example C44_example : oshow (par_ragged 25 100 false true) = Ok [[str_of "aBcDe"; str_of "fgHi"; str_of "jk"]]
  /\ owidths (par_ragged 25 100 false true) = Ok [[25#1; 20#1; 10#1]]%Q.
Proof. split; vm_compute; reflexivity. Qed.

(** ** C45. *)
Theorem C45_optimum_keeps_text : forall (NUM : Num) (ENV : Env NUM) fuel ws cols allow_empty (lead : num) avoid ragged tolerance P out,
  paragraph_words ws -> (forall i, 0 <= nfloordiv (snd (cols i)) lead)%Z ->
  opt_shape fuel ws cols allow_empty lead avoid ragged tolerance P = Ok out ->
  conserves (map (fun l => measured_all (ol_words l)) (concat out)) (measured_all ws).
Proof.
  intros NUM ENV fuel ws cols ae lead av ragged tolerance P out PW RM E. assert (FL := pw_flat _ PW).
  destruct ws as [|w0 ws0].
  - apply opt_shape_spec in E as (frags & boxes & IB & H); auto. unfold into_boxes in IB. cbn in IB. inversion IB; subst.
    assert (L : forall (A : Type) n, concat (repeat (@nil A) n) = []) by (induction n; auto).
    destruct H as [(_ & d & -> & _)|(d & q & gs & _ & _ & _ & ls & LY & _)]; [|discriminate LY].
    rewrite concat_app, L. cbn. apply conserves_one. left. reflexivity.
  - destruct (out_lines _ _ _ _ _ _ _ _ _ _ RM FL ltac:(discriminate) E) as (full & width & t & ls & WB & R & PL & ->).
    assert (IB : into_boxes (w0 :: ws0) (negb ragged) = Ok (map fst full, map snd full)) by (unfold into_boxes; rewrite WB; reflexivity).
    destruct (into_boxes_good _ _ _ _ FL IB) as (<- & _ & GF & _). eapply rows_text; eauto.
Qed.
Print Assumptions C45_optimum_keeps_text.
(** Style: each character keeps its style, and the style at the end is that of the
    whole, provided that no style change follows a word that is just a space. *)
Theorem C45_optimum_keeps_style_partial : forall (NUM : Num) (ENV : Env NUM) fuel ws cols allow_empty (lead : num) avoid ragged tolerance P out,
  paragraph_words ws -> (forall i, 0 <= nfloordiv (snd (cols i)) lead)%Z ->
  (forall x c, In (WCmd (WWord x) c) ws -> w_boxes x <> []) ->
  opt_shape fuel ws cols allow_empty lead avoid ragged tolerance P = Ok out ->
  forall s, coh_all ws s ->
    coh_all (flat_map ol_words (concat out)) s /\ end_all (flat_map ol_words (concat out)) s = end_all ws s.
Proof.
  intros NUM ENV fuel ws cols ae lead av ragged tolerance P out PW RM NB E. assert (FL := pw_flat _ PW).
  destruct ws as [|w0 ws0].
  - apply opt_shape_spec in E as (frags & boxes & IB & H); auto. unfold into_boxes in IB. cbn in IB. inversion IB; subst.
    assert (L : forall (A : Type) n, concat (repeat (@nil A) n) = []) by (induction n; auto).
    destruct H as [(_ & d & -> & _)|(d & q & gs & _ & _ & _ & ls & LY & _)]; [|discriminate LY].
    rewrite concat_app, L. cbn. auto.
  - destruct (out_lines _ _ _ _ _ _ _ _ _ _ RM FL ltac:(discriminate) E) as (full & width & t & ls & WB & R & PL & ->).
    assert (IB : into_boxes (w0 :: ws0) (negb ragged) = Ok (map fst full, map snd full)) by (unfold into_boxes; rewrite WB; reflexivity).
    destruct (into_boxes_good _ _ _ _ FL IB) as (_ & CH & GF & _ & LN). intros s C. destruct (CH s C) as (C1 & <-).
    eapply rows_text; eauto. apply Forall_forall. intros f If B. destruct (LN f If B) as (x & X1 & [X2|X2]); [|exfalso; eapply NB; eauto].
    destruct (fr_cmd f) eqn:FC; auto; exfalso; eapply NB; eauto.
Qed.
Print Assumptions C45_optimum_keeps_style_partial.
(** In general false: after a space alone on its line the change of style is lost. *)
Definition ex_sp : list wordlike := ex_parse [(NoOp, str_of " "); (ex_set_bold, str_of "abcde")].
Definition ex_sp_out := opt_shape 50 ex_sp (ex_cols 30 100) false (nZ 10) true true (nZ 1) ex_params.
Theorem C45_optimum_keeps_style_refuted : exists (ENV : Env QcNum) fuel ws cols allow_empty (lead : Qc) avoid ragged tolerance P out s,
  paragraph_words ws /\ (forall i, 0 <= @nfloordiv QcNum (snd (cols i)) lead)%Z
  /\ opt_shape fuel ws cols allow_empty lead avoid ragged tolerance P = Ok out
  /\ coh_all ws s /\ ~ coh_all (flat_map ol_words (concat out)) s.
Proof.
  exists ex_words, 50, ex_sp, (ex_cols 30 100), false, (Q2Qc 10), true, true, (Q2Qc 1), ex_params, (ok_or [] ex_sp_out), ex_state.
  split; [apply ex_parse_pw; vm_compute; reflexivity|]. split; [intros i; vm_compute; discriminate|].
  split; [apply (ok_or_eq []); vm_compute; reflexivity|].
  split; [vm_compute; tauto|]. vm_compute. intros H. decompose [and] H. congruence.
Qed.
Print Assumptions C45_optimum_keeps_style_refuted.

(** ** C46. *)
Theorem C46_lines_in_their_columns : forall (ENV : Env QcNum) fuel ws cols allow_empty (lead : Qc) avoid ragged tolerance P out,
  paragraph_words ws -> ws <> [] -> (0 < lead)%Qc -> (forall i, 0 <= snd (cols i))%Qc ->
  opt_shape fuel ws cols allow_empty lead avoid ragged tolerance P = Ok out ->
  exists frags boxes width t brs,
    into_boxes ws (negb ragged) = Ok (frags, boxes) /\ optimum_fit width t P ragged boxes = Ok brs
    /\ into_lines ragged brs frags = Ok (concat out)
    /\ map fst (placed cols out) = map width (seq 0 (List.length (concat out))).
Proof.
  intros ENV fuel ws cols ae lead av ragged tolerance P out PW NE LP CP E. assert (FL := pw_flat _ PW).
  destruct (roomy_cols cols lead LP CP) as (RM & _).
  apply opt_shape_spec in E as (frags & boxes & IB & [(-> & _)|(d & q & groups & D & -> & Q & L)]); auto.
  { exfalso. destruct (into_boxes_good _ _ _ _ FL IB) as (_ & _ & _ & X & _). apply X; auto. }
  destruct L as (ls & L1 & L2). unfold lay in L1. apply bind_ok in L1 as (brs & FB & IL).
  unfold find_breaks in FB. destruct boxes as [|b0 bs]; [discriminate|]. apply try_fit_ok in FB as (t & _ & FB).
  exists frags, (b0 :: bs), (line_length q), t, brs.
  destruct (per_column_spec ls q (proj1 Q)) as (gs & E3 & E4 & E5 & _). rewrite L2 in E3. inversion E3; subst gs.
  assert (RC : forall (A : Type) n, concat (repeat (@nil A) n) = []) by (induction n; auto).
  rewrite concat_app, RC, E4. cbn [app]. split; auto. split; auto. split; auto.
  rewrite placed_repeat. destruct Q as (_ & QC & _). rewrite <- (placed_ext _ _ groups QC).
  rewrite E5. reflexivity.
Qed.
Print Assumptions C46_lines_in_their_columns.
Theorem C46_room_partial : forall (ENV : Env QcNum) fuel ws cols allow_empty (lead : Qc) avoid ragged tolerance P out i ls,
  paragraph_words ws -> (0 < lead)%Qc -> (forall i, 0 <= snd (cols i))%Qc ->
  opt_shape fuel ws cols allow_empty lead avoid ragged tolerance P = Ok out -> nth_error out i = Some ls ->
  List.length ls = 0
  \/ (nlines (List.length ls) * lead <= snd (cols i))%Qc
  \/ (List.length ls = 1 /\ (snd (cols i) < lead)%Qc /\ (i = 0 -> allow_empty = false)).
Proof.
  intros ENV fuel ws cols ae lead av ragged tolerance P out i ls PW LP CP E N. assert (FL := pw_flat _ PW).
  destruct (roomy_cols cols lead LP CP) as (RM & _).
  apply opt_shape_spec in E as (frags & boxes & IB & H); auto.
  assert (X : ls = [] \/ (Z.of_nat (List.length ls) <= room cols lead ae i)%Z).
  { assert (RN : forall (A : Type) (d i : nat) (x : list A) r, nth_error (repeat [] d ++ r) i = Some x ->
      x = [] \/ d <= i /\ nth_error r (i - d) = Some x).
    { clear. intros A d. induction d as [|d IH]; intros i x r; cbn; [rewrite Nat.sub_0_r; right; split; [lia|auto]|].
      destruct i as [|i]; cbn; [intros [= <-]; auto|]. intros H. apply IH in H as [H|(H1 & H2)]; auto. right. split; [lia|auto]. }
    destruct H as [(-> & d & -> & _ & RD)|(d & q & groups & D & -> & Q & L)].
    - apply RN in N as [N|(N1 & N2)]; auto. right. destruct (i - d) as [|k] eqn:ID; cbn in N2; [|destruct k; discriminate].
      inversion N2; subst. cbn [List.length]. replace i with d by lia. lia.
    - apply RN in N as [N|(N1 & N2)]; auto. right. destruct (laid_groups _ _ _ _ _ _ _ _ d _ _ _ _ Q L N2) as (_ & G).
      destruct Q as (_ & _ & QR). specialize (QR (i - d)). replace (d + (i - d)) with i in QR by lia. lia. }
  destruct X as [-> |X]; [auto|].
  destruct (count_room (snd (cols i)) lead (ae && (i =? 0)) (List.length ls) LP) as [R|[R|(R1 & R2 & R3 & R4)]]; auto.
  { eapply Z.le_trans; [exact X|]. apply Z.le_max_r. }
  right. right. split; auto. split; auto. intros ->. rewrite andb_true_r in R2. exact R2.
Qed.
Print Assumptions C46_room_partial.
(** two lines per column; without the repair the last line stands alone *)
Example C46_example :
  oshow (par_ragged 20 35 false false) = Ok [[str_of "aBc-"; str_of "De"; str_of "fgHi"]; [str_of "jk"]]
  /\ oshow (par_ragged 20 35 false true) = Ok [[str_of "aBc-"; str_of "De"]; [str_of "fgHi"; str_of "jk"]].
Proof. split; vm_compute; reflexivity. Qed.
(** In general false: with a first column of negative free height, lines are put
    into it although it has no room, and the last line of the text is lost. *)
Definition neg_cols (i : nat) : @num QcNum * @num QcNum := if i =? 0 then (nZ 25, nZ (-5)) else (nZ 25, nZ 10).
Theorem C46_room_refuted : exists (ENV : Env QcNum) fuel ws cols (lead : Qc) P out ls,
  paragraph_words ws /\ ws <> [] /\ (0 < lead)%Qc /\ (snd (cols O) < 0)%Qc
  /\ opt_shape fuel ws cols true lead true true 1%Qc P = Ok out /\ nth_error out 0 = Some ls /\ List.length ls = 2
  /\ flat_map (fun l => map fst (measured_all (ol_words l))) (concat out) = str_of "aBcDefgHi"
  /\ map fst (measured_all ws) = str_of "aBcDe fgHi jk".
Proof.
  exists ex_words, 50, ex_par, neg_cols, (Q2Qc 10), ex_params.
  set (r := opt_shape 50 ex_par neg_cols true (nZ 10) true true (nZ 1) ex_params).
  exists (ok_or [] r), (nth 0 (ok_or [] r) []).
  split; [apply ex_facts|]. split; [apply ex_facts|]. split; [reflexivity|]. split; [reflexivity|].
  split; [apply (ok_or_eq []); vm_compute; reflexivity|]. repeat split; vm_compute; reflexivity.
Qed.
Print Assumptions C46_room_refuted.

(** ** C47. *)
(** a justified line with spaces: the last one fits, every other one fills its
    column - or would, if its spaces were twice as wide *)
Theorem C47_justified_lines_partial : forall (ENV : Env QcNum) fuel ws cols allow_empty (lead : Qc) avoid tolerance P out m W l,
  paragraph_words ws -> ws <> [] -> (0 < lead)%Qc -> (forall i, 0 <= snd (cols i))%Qc ->
  opt_shape fuel ws cols allow_empty lead avoid false tolerance P = Ok out ->
  nth_error (placed cols out) m = Some (W, l) -> (0 < gaps (ol_words l))%Qc ->
  if S m =? List.length (placed cols out) then (all_advance (ol_words l) <= W)%Qc
  else all_advance (ol_words l) = W \/ (all_advance (ol_words l) + gaps (ol_words l))%Qc = W.
Proof.
  intros ENV fuel ws cols ae lead av tolerance P out m W l PW NE LP CP E N G.
  assert (FL := pw_flat _ PW). assert (OK := pw_ok _ PW).
  destruct (roomy_cols cols lead LP CP) as (RM & _).
  destruct (out_lines _ _ _ _ _ _ _ _ _ _ RM FL NE E) as (full & width & t & ls & WB & R & PL & _).
  assert (IB : into_boxes ws (negb false) = Ok (map fst full, map snd full)) by (unfold into_boxes; rewrite WB; reflexivity).
  destruct (into_boxes_good _ _ _ _ FL IB) as (_ & _ & GF & _).
  destruct (words_boxes_sums _ ws OK FL _ _ _ _ WB) as (wd' & st' & sh' & SU).
  rewrite PL in *. destruct (nth_combine width ls O m _ N) as (N1 & N2). cbn [fst snd Nat.add] in *. subst W.
  rewrite combine_length, map_length, seq_length, Nat.min_id.
  eapply just_lines; eauto.
Qed.
Print Assumptions C47_justified_lines_partial.
Example C47_example :
  oshow (par_just 45 100 false true) = Ok [[str_of "aBcDe fg-"; str_of "Hi jk"]]
  /\ owidths (par_just 45 100 false true) = Ok [[45#1; 25#1]]%Q
  /\ owidths (par_just 60 100 false true) = Ok [[60#1; 10#1]]%Q.
Proof. repeat split; vm_compute; reflexivity. Qed.
(** In general false: in a column 55 wide the first line of two is 50 wide. *)
Theorem C47_justified_lines_refuted : exists (ENV : Env QcNum) fuel ws cols (lead : Qc) P out W l,
  paragraph_words ws /\ ws <> [] /\ (0 < lead)%Qc /\ (forall i, 0 <= snd (cols i))%Qc
  /\ opt_shape fuel ws cols true lead true false 1%Qc P = Ok out /\ nth_error (placed cols out) 0 = Some (W, l)
  /\ List.length (placed cols out) = 2 /\ (0 < gaps (ol_words l))%Qc
  /\ (this (all_advance (ol_words l)) == 50)%Q /\ (this W == 55)%Q.
Proof.
  exists ex_words, 50, ex_par, (ex_cols 55 100), (Q2Qc 10), ex_params.
  set (r := opt_shape 50 ex_par (ex_cols 55 100) true (nZ 10) true false (nZ 1) ex_params).
  exists (ok_or [] r), (Q2Qc 55), (nth 0 (nth 0 (ok_or [] r) []) (@mkOLine QcNum [] (Q2Qc 0))).
  split; [apply ex_facts|]. split; [apply ex_facts|]. split; [reflexivity|]. split; [intros i; vm_compute; discriminate|].
  split; [apply (ok_or_eq []); vm_compute; reflexivity|]. repeat split; vm_compute; reflexivity.
Qed.
Print Assumptions C47_justified_lines_refuted.

(** ** C48. *)
Theorem C48_optimum_terminates : forall (NUM : Num) (ENV : Env NUM) ws cols allow_empty (lead : num) avoid ragged tolerance P,
  (forall i, 0 <= nfloordiv (snd (cols i)) lead)%Z ->
  exists n, forall fuel, n <= fuel -> opt_shape fuel ws cols allow_empty lead avoid ragged tolerance P <> Err EFuel.
Proof. intros. apply opt_shape_terminates; auto. Qed.
Print Assumptions C48_optimum_terminates.

(** ** C69. *)
(** The width by which centred and right-aligned lines are placed is the width of the
    piece of text the line was made from: without the hyphen that was added at the
    end of the line, and with the space that was removed there. *)
Theorem C69_optimum_width_partial : forall (ENV : Env QcNum) fuel ws cols allow_empty (lead : Qc) avoid ragged tolerance P out,
  paragraph_words ws -> ws <> [] -> (0 < lead)%Qc -> (forall i, 0 <= snd (cols i))%Qc ->
  opt_shape fuel ws cols allow_empty lead avoid ragged tolerance P = Ok out ->
  exists pieces, measured_all (concat pieces) = measured_all ws
    /\ Forall2 (fun p l => is_line_of (measured_all p) (measured_all (ol_words l)) /\ ol_width l = all_advance p)
               pieces (concat out).
Proof.
  intros ENV fuel ws cols ae lead av ragged tolerance P out PW NE LP CP E.
  assert (FL := pw_flat _ PW). assert (OK := pw_ok _ PW).
  destruct (roomy_cols cols lead LP CP) as (RM & _).
  destruct (out_lines _ _ _ _ _ _ _ _ _ _ RM FL NE E) as (full & width & t & ls & WB & R & PL & ->).
  assert (IB : into_boxes ws (negb ragged) = Ok (map fst full, map snd full)) by (unfold into_boxes; rewrite WB; reflexivity).
  destruct (into_boxes_good _ _ _ _ FL IB) as (<- & _ & GF & _).
  destruct (words_boxes_sums _ ws OK FL _ _ _ _ WB) as (wd' & st' & sh' & SU).
  exact (rows_pieces _ full _ _ _ _ _ _ _ _ _ _ _ SU GF R [] full eq_refl eq_refl eq_refl).
Qed.
Print Assumptions C69_optimum_width_partial.
(** It is not the width shown: *)
Theorem C69_optimum_width_refuted : exists (ENV : Env QcNum) fuel ws cols (lead : Qc) P out l,
  paragraph_words ws /\ ws <> [] /\ (0 < lead)%Qc /\ (forall i, 0 <= snd (cols i))%Qc
  /\ opt_shape fuel ws cols true lead true true 1%Qc P = Ok out /\ nth_error (concat out) 0 = Some l
  /\ map fst (measured_all (ol_words l)) = str_of "aBcDe"
  /\ (this (all_advance (ol_words l)) == 25)%Q /\ (this (ol_width l) == 30)%Q.
Proof.
  exists ex_words, 50, ex_par, (ex_cols 25 100), (Q2Qc 10), ex_params.
  set (r := opt_shape 50 ex_par (ex_cols 25 100) true (nZ 10) true true (nZ 1) ex_params).
  exists (ok_or [] r), (nth 0 (nth 0 (ok_or [] r) []) (@mkOLine QcNum [] (Q2Qc 0))).
  split; [apply ex_facts|]. split; [apply ex_facts|]. split; [reflexivity|]. split; [intros i; vm_compute; discriminate|].
  split; [apply (ok_or_eq []); vm_compute; reflexivity|]. repeat split; vm_compute; reflexivity.
Qed.
Print Assumptions C69_optimum_width_refuted.
