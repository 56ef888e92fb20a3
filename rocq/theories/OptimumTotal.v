(** * OptimumTotal: when optimal typesetting succeeds. *)
From Coq Require Import QArith Qcanon Qround Lqa Sorted.
From Verif Require Import Base Gfmt FontSpec FontProofs Num Fonts State TextSpec StateProofs
  Words WordsSpec WordProofs WordOps Parse Render RenderSpec RenderProofs WordWidth LineSpec Firstfit FirstfitProofs FirstfitWidth
  KnuthPlass KPSpec KPProofs Properties_KnuthPlass Optimum OptimumProofs OptimumWidth OptimumLines.
Open Scope nat_scope.

Section Total.
Context {NUM : Num} {ENV : Env NUM}.
Definition has_text (w : wordlike) : Prop := wl_boxes w <> [] \/ wl_tail w <> None.
Lemma word_boxes_total just w wd st sh : flat w -> has_text w -> exists x, word_boxes just w wd st sh = Ok x.
Proof.
  intros F H. unfold word_boxes.
  assert (U : exists x c, unwrap w = (WWord x, c) /\ (w_boxes x <> [] \/ w_tail x <> None)).
  { destruct w as [b|x|[b|x|w c'] c]; cbn in F; try contradiction; [exists x, NoOp|exists x, c]; split; auto. }
  destruct U as (x & c & -> & U). cbn [wl_boxes wl_tail wl_state].
  destruct (chunk_boxes _ _ _ _). destruct (w_tail x); [eauto|].
  destruct (rev (w_boxes x)) eqn:R; [|eauto]. exfalso. destruct U as [U|U]; [|auto].
  apply U. rewrite <- (rev_involutive (w_boxes x)), R. reflexivity.
Qed.
Lemma words_boxes_total just ws : Forall flat ws -> Forall has_text ws -> forall wd st sh, exists l, words_boxes just ws wd st sh = Ok l.
Proof.
  induction 1 as [|w ws F _ IH]; intros H wd st sh; cbn; [eauto|]. inversion H; subst.
  destruct (word_boxes_total just w wd st sh) as ([[[l wd'] st'] sh'] & ->); auto. cbn.
  destruct (IH ltac:(assumption) wd' st' sh') as (l' & ->). cbn. eauto.
Qed.
(** words of a parsed text are not empty *)
Lemma measured_has_text w : measured_word w <> [] -> has_text (WWord w).
Proof.
  destruct w as [bs t st]. unfold has_text. cbn. destruct bs; [|left; discriminate]. destruct t; [right; discriminate|].
  intros H. exfalso. apply H. reflexivity.
Qed.
Lemma word_new_has_text s st prev w : all_split -> s <> [] -> word_new s st prev = Ok w -> has_text (WWord w).
Proof.
  intros AS N H. destruct (word_new_spec s st prev AS) as (w' & E & M & _). rewrite H in E. inversion E; subst w'.
  apply measured_has_text. rewrite M. unfold styled_str. destruct s; [congruence|discriminate].
Qed.
Lemma split_word_nonempty t w r : split_word t = Some (w, r) -> w <> [].
Proof.
  destruct t as [|c t]; cbn; [discriminate|]. destruct (is_space c); [destruct (take_while _ _); intros [= <- <-]; discriminate|].
  destruct (break_char c); [intros [= <- <-]; discriminate|]. destruct (split_word t) as [[a b]|]; cbn; [|discriminate]. intros [= <- <-]. discriminate.
Qed.
Lemma simple_words_has_text fuel : all_split -> forall t st prev ws x, t <> [] -> simple_words fuel t st prev = Ok (ws, x) ->
  Forall (fun w => has_text (WWord w)) ws /\ match x with inl h => h <> [] | inr w => has_text (WWord w) end.
Proof.
  intros AS. induction fuel as [|fuel IH]; intros t st prev ws x N H; cbn in H; [discriminate|].
  destruct (split_word t) as [[w r]|] eqn:E; [|inversion H; subst; split; [constructor|auto]].
  apply bind_ok in H as (y & E1 & H). apply word_new_has_text in E1; auto; [|eapply split_word_nonempty; eauto].
  destruct r as [|c r]; [inversion H; subst; split; [constructor|auto]|].
  apply bind_ok in H as ([ws' x'] & E2 & H). inversion H; subst. apply IH in E2 as (A & B); [|discriminate]. cbn. split; auto.
Qed.
Lemma complete_word_has_text it head st w next : all_split -> head <> [] -> complete_word it head st = Ok (w, next) -> has_text (WWord w).
Proof.
  intros AS N H. unfold complete_word in H. destruct (take_parts it) as [parts nx]. destruct parts as [|p ps].
  - apply bind_ok in H as (y & E & H). inversion H; subst. eapply word_new_has_text; eauto.
  - destruct (segments _ _ _ _ _) as [[segs pv] st']. inversion H; subst. left. discriminate.
Qed.
Lemma has_text_cmd w c : has_text w -> has_text (with_cmd w c).
Proof. destruct c; auto. Qed.
Lemma parse_has_text fuel : all_split -> forall it st txt ws ex, parse_loop fuel it st txt = Ok (ws, ex) -> Forall has_text ws.
Proof.
  intros AS. induction fuel as [|fuel IH]; intros it st txt ws ex H; cbn [parse_loop] in H; [discriminate|].
  destruct txt as [|c txt]; [inversion H; constructor|].
  apply bind_ok in H as ([ws0 last] & E0 & H). cbn [fst snd] in H.
  apply simple_words_has_text in E0 as (W0 & LA); auto; [|discriminate].
  assert (W0' : Forall has_text (map WWord ws0)). { apply Forall_map. exact W0. }
  destruct last as [head|w].
  - apply bind_ok in H as ([w next] & E1 & H). apply complete_word_has_text in E1; auto. destruct next as [[[|c0 r] it']|].
    + destruct it' as [|[cmd t] it'']; [inversion H; apply Forall_app; split; auto; repeat constructor; auto|].
      apply bind_ok in H as ([y e] & E & H). inversion H; subst. apply Forall_app; split; auto.
      constructor; [apply has_text_cmd; auto|]. eapply IH; eauto.
    + apply bind_ok in H as ([y e] & E & H). inversion H; subst. apply Forall_app; split; auto.
      constructor; [auto|]. eapply IH; eauto.
    + inversion H. apply Forall_app; split; auto; repeat constructor; auto.
  - destruct it as [|[cmd t] it'']; [inversion H; apply Forall_app; split; auto; repeat constructor; auto|].
    apply bind_ok in H as ([y e] & E & H). inversion H; subst. apply Forall_app; split; auto.
    constructor; [apply has_text_cmd; auto|]. eapply IH; eauto.
Qed.
Lemma into_words_has_text ps st cmd ws ex : all_split -> into_words ps st = Ok (cmd, ws, ex) -> Forall has_text ws.
Proof.
  intros AS. unfold into_words. destruct (fold_commands ps st []) as [[c x] st']. destruct x as [[t it]|].
  - intros H. apply bind_ok in H as ([y e] & E & H). inversion H; subst. eapply parse_has_text; eauto.
  - intros H. inversion H; constructor.
Qed.

(** lines can be made from any feasible breaking *)
Fixpoint stretchable (w : wordlike) : Prop :=
  match w with
  | WBox _ => True
  | WWord w => w_tail w <> None -> neqb (st_size (w_state w)) n0 = false
  | WCmd w _ => stretchable w
  end.
Lemma stretchable_total w x : stretchable w -> exists w', wl_stretch_tail w x = Ok w'.
Proof.
  induction w as [b|w|w IH c]; cbn; intros H; [eauto| |].
  - unfold word_stretch_tail. destruct (w_tail w) as [t|]; [|cbn; eauto]. destruct (neqb x n1); [cbn; eauto|].
    unfold tspace_stretch, pdiv. rewrite H by discriminate. cbn. eauto.
  - destruct (wl_tail w); [|eauto]. destruct (IH H) as (w' & ->). cbn. eauto.
Qed.
Lemma mapM_total {A B} (f : A -> res B) l : (forall x, In x l -> exists y, f x = Ok y) -> exists ys, mapM f l = Ok ys.
Proof.
  induction l as [|x l IH]; intros H; cbn; [eauto|]. destruct (H x (or_introl eq_refl)) as (y & ->). cbn.
  destruct IH as (ys & ->); [intros; apply H; right; auto|]. cbn. eauto.
Qed.
Definition frag_stretchable (f : fragment) : Prop := stretchable (fr_txt f) /\ (forall w, fr_break f = Some w -> stretchable w).
Lemma stretchable_cmd w c : stretchable w -> stretchable (with_cmd w c).
Proof. destruct c; auto. Qed.
Lemma line_words_total fs : fs <> [] -> Forall frag_stretchable fs -> exists ws, line_words fs = Ok ws /\ Forall stretchable ws.
Proof.
  intros N H. unfold line_words. destruct (rev fs) as [|last ri] eqn:R.
  { exfalso. apply N. rewrite <- (rev_involutive fs), R. reflexivity. }
  assert (E : fs = rev ri ++ [last]) by (rewrite <- (rev_involutive fs), R; reflexivity).
  rewrite E in H. apply Forall_app in H as (H1 & H2). inversion H2 as [|? ? (H3 & H4) _]; subst.
  set (body := map _ (rev ri)).
  assert (B : Forall stretchable body).
  { unfold body. apply Forall_map. eapply Forall_impl; [|exact H1]. intros f (X & _). apply stretchable_cmd, X. }
  destruct (fr_break last) as [w|].
  - eexists. split; [reflexivity|]. apply Forall_app. split; auto. constructor; [|constructor]. apply stretchable_cmd. auto.
  - destruct (rev body) as [|x r] eqn:RB; [eexists; split; [reflexivity|constructor]|].
    eexists. split; [reflexivity|]. assert (EB : body = rev r ++ [x]) by (rewrite <- (rev_involutive body), RB; reflexivity).
    rewrite EB in B. apply Forall_app in B as (B1 & B2). apply Forall_app. split; auto. inversion B2; subst. constructor; [|constructor].
    apply stretchable_cmd. auto.
Qed.
Lemma lines_ragged_total brs : forall prev fs, StronglySorted lt (prev :: map br_pos brs) ->
  Forall (fun b => br_pos b <= List.length fs) brs -> Forall frag_stretchable fs ->
  exists ls, lines_ragged prev brs fs = Ok ls /\ Forall (fun l => Forall stretchable (ol_words l)) ls.
Proof.
  induction brs as [|b brs IH]; intros prev fs S L F; cbn; [eexists; split; [reflexivity|constructor]|].
  inversion S as [|? ? S1 S2]; subst. cbn in S1. inversion S2; subst. inversion L; subst.
  destruct (line_words_total (firstn (br_pos b - prev) (skipn prev fs))) as (ws & -> & W).
  - intros C. apply (f_equal (@List.length _)) in C. rewrite firstn_length, skipn_length in C. cbn in C. lia.
  - apply Forall_forall. intros f I. rewrite Forall_forall in F. apply F.
    rewrite <- (firstn_skipn prev fs). apply in_or_app. right.
    rewrite <- (firstn_skipn (br_pos b - prev) (skipn prev fs)). apply in_or_app. left. exact I.
  - cbn. destruct (IH (br_pos b) fs) as (ls & -> & LS); auto. cbn. eexists. split; [reflexivity|]. constructor; auto.
Qed.
Lemma stretch_all_total brs : forall ls, Forall (fun l => Forall stretchable (ol_words l)) ls -> exists ls', stretch_all brs ls = Ok ls'.
Proof.
  induction brs as [|b brs IH]; intros [|l ls] H; cbn; [eauto|eauto|eauto|]. inversion H as [|? ? H1 H2]; subst.
  unfold oline_stretch.
  match goal with |- context [mapM ?f ?l] => destruct (mapM_total f l) as (ws & ->) end.
  { intros w I. apply stretchable_total. rewrite Forall_forall in H1. auto. }
  cbn. destruct (IH ls H2) as (ls' & ->). cbn. eauto.
Qed.
Lemma into_lines_total boxes width t P ragged brs frags : boxes <> [] -> optimum_fit width t P ragged boxes = Ok brs ->
  List.length frags = List.length boxes -> Forall frag_stretchable frags ->
  exists ls, into_lines ragged brs frags = Ok ls /\ ls <> [].
Proof.
  intros NE H L F. destruct (C40_breaks_partition _ _ _ _ _ _ _ H) as [(-> & _)|(init & b & E & EP & S & _)]; [congruence|].
  assert (B : Forall (fun b => br_pos b <= List.length frags) brs).
  { rewrite L, <- EP, E. rewrite E in S. inversion S as [|? ? S1 S2]; subst. clear -S1. apply Forall_app. split; [|constructor; [lia|constructor]].
    rewrite map_app in S1. cbn in S1. induction init as [|x init IH]; [constructor|]. cbn in S1. inversion S1 as [|? ? S2 S3]; subst. constructor; auto.
    apply Forall_app in S3 as (_ & S3). inversion S3; lia. }
  destruct (lines_ragged_total brs 0 frags S B F) as (ls & E1 & ST). unfold into_lines. rewrite E1. cbn [bind].
  assert (LN : List.length ls = List.length brs).
  { clear -E1. revert E1. generalize 0. revert ls. induction brs as [|b brs IH]; intros ls n H; cbn in H; [inversion H; reflexivity|].
    apply bind_ok in H as (ws & _ & H). apply bind_ok in H as (l2 & E2 & H). inversion H; subst. cbn. f_equal. eapply IH; eauto. }
  assert (NL : ls <> []). { intros ->. rewrite E, app_length in LN. cbn in LN. lia. }
  destruct ragged; [eauto|]. destruct (stretch_all_total brs ls ST) as (ls' & EQ). exists ls'. split; auto.
  intros ->. apply stretch_all_mapM in EQ; [|exact LN]. inversion EQ as [EQ'|]. destruct brs; [destruct init; discriminate|]. destruct ls; [congruence|discriminate].
Qed.
(** the orphan repair *)
Lemma repair_total frags boxes ragged tolerance P N d cols lead ae :
  (forall q, queue_ok cols lead ae d q -> exists ls, lay frags boxes ragged tolerance P q = Ok ls /\ ls <> [] /\ List.length ls <= N) ->
  forall fuel groups q, queue_ok cols lead ae d q -> laid frags boxes ragged tolerance P q groups ->
  (q_counts q N <= Z.of_nat fuel)%Z ->
  exists out, repair frags boxes ragged tolerance P fuel groups q = Ok out.
Proof.
  intros LN. induction fuel as [|fuel IH]; intros groups q Q L F.
  - destruct Q as (A & _). pose proof (asc_ge _ N A). lia.
  - cbn [repair]. destruct (rev groups) as [|last [|prev rest]] eqn:R; [|eauto|].
    { exfalso. destruct L as (ls & E1 & E2). destruct (LN q Q) as (ls' & E3 & NE & _). rewrite E1 in E3. inversion E3; subst ls'.
      destruct (per_column_spec ls q (proj1 Q)) as (gs & E4 & E5 & _). rewrite E2 in E4. inversion E4; subst gs.
      apply NE. rewrite <- E5, <- (rev_involutive groups), R. reflexivity. }
    destruct (rev_two _ _ _ _ R) as (N1 & _ & LE).
    destruct (_ && _ && _) eqn:C; [|eauto].
    apply andb_true_iff in C as (C & C3). apply andb_true_iff in C as (C1 & C2).
    destruct (laid_groups _ _ _ _ _ _ _ _ _ _ _ _ _ Q L N1) as (_ & B1).
    set (q' := shorten_column q (List.length groups - 2)) in *.
    assert (Q' : queue_ok cols lead ae d q'). { apply shorten_ok; auto. lia. }
    assert (ML : List.length groups <= N).
    { destruct L as (ls & E1 & E2). destruct (LN q Q) as (ls' & E1' & _ & LL). rewrite E1 in E1'. inversion E1'; subst ls'.
      destruct Q as (A & _). destruct (per_column_spec ls q A) as (gs & E3 & E4 & _ & E5).
      rewrite E2 in E3. inversion E3; subst gs. etransitivity; [|exact LL]. rewrite <- E4.
      apply groups_len. intros m g Hm. apply (E5 m g Hm). }
    assert (F' : (q_counts q' N <= Z.of_nat fuel)%Z).
    { unfold q'. cbn [shorten_column q_counts]. destruct (_ <=? N) eqn:X; lia. }
    destruct (LN q' Q') as (ls & E1 & _). rewrite E1. cbn [bind].
    destruct (per_column_spec ls q' (proj1 Q')) as (gs & E3 & _). rewrite E3. cbn [bind].
    assert (L' : laid frags boxes ragged tolerance P q' gs) by (exists ls; auto).
    destruct (rev gs) as [|l' rs]; [eapply IH; eauto|].
    destruct (_ && _); [eauto|eapply IH; eauto].
Qed.
Lemma opt_shape_total ws cols (ae : bool) (lead : num) (avoid ragged : bool) tolerance P frags boxes :
  (forall i, (0 <= nfloordiv (snd (cols i)) lead)%Z) -> neqb lead n0 = false ->
  into_boxes ws (negb ragged) = Ok (frags, boxes) -> boxes <> [] ->
  (forall d q, queue_ok cols lead ae d q -> exists ls, lay frags boxes ragged tolerance P q = Ok ls /\ ls <> []) ->
  exists n, forall fuel, n <= fuel -> exists out, opt_shape fuel ws cols ae lead avoid ragged tolerance P = Ok out.
Proof.
  intros ROOMY LD E NE LAY.
  assert (LF := into_boxes_len _ _ _ _ E).
  assert (LN : forall d q, queue_ok cols lead ae d q -> exists ls, lay frags boxes ragged tolerance P q = Ok ls /\ ls <> [] /\ List.length ls <= List.length frags).
  { intros d q Q. destruct (LAY d q Q) as (ls & H & N). exists ls. split; auto. split; auto.
    destruct (lay_rows _ _ _ _ _ _ _ LF H) as (t & _ & R). eapply rows_len; eauto. }
  set (N := List.length frags) in *.
  set (q0 := queue_new cols lead ae). set (q1 := queue_new (fun i => cols (S i)) lead false).
  exists (Z.to_nat (q_counts q0 N) + Z.to_nat (q_counts q1 N) + Z.to_nat (q_counts (remove_first_column q0) N)
          + Z.to_nat (q_counts (remove_first_column q1) N)).
  intros fuel F. unfold opt_shape. rewrite E. cbn [bind]. rewrite LD.
  fold q0. fold q1.
  assert (X : exists (d : nat) (q : queue), (if (q_counts q0 O =? 0)%Z then ([[]], q1) else ([], q0)) = (repeat (@nil oline) d, q)
     /\ queue_ok cols lead ae d q /\ (q = q0 \/ q = q1)).
  { destruct (q_counts q0 O =? 0)%Z eqn:Z; cbn [q0 queue_new q_counts count_to] in Z.
    - exists 1, q1. split; auto. split; auto. apply queue_next_ok; auto.
    - exists 0, q0. split; auto. split; auto. apply queue_new_ok; auto.
      pose proof (room_nonneg cols lead ae ROOMY 0). pose proof (count_incr cols lead ae ROOMY 0). cbn [before count_to] in *. lia. }
  destruct X as (d & q & EQ & Q & QQ). rewrite EQ. clear EQ.
  destruct boxes as [|b0 boxes]; [congruence|].
  destruct (LN d q Q) as (ls & E1 & NL & LL). rewrite E1. cbn [bind].
  assert (X : exists d' q' ls', queue_ok cols lead ae d' q' /\ (q' = q \/ q' = remove_first_column q)
     /\ lay frags (b0 :: boxes) ragged tolerance P q' = Ok ls'
     /\ (if avoid && ae && (q_counts q 0 =? 1)%Z && (1 <? List.length ls) && (2 <=? q_counts q 1)%Z
         then do ls' <- lay frags (b0 :: boxes) ragged tolerance P (remove_first_column q);
              Ok (repeat (@nil oline) d ++ [[]], remove_first_column q, ls')
         else Ok (repeat [] d, q, ls)) = Ok (repeat [] d', q', ls')).
  { destruct (_ && _).
    - assert (Q' : queue_ok cols lead ae (S d) (remove_first_column q)) by (apply remove_first_ok; auto). destruct (LN _ _ Q') as (ls' & E2 & _).
      exists (S d), (remove_first_column q), ls'. split; auto. split; auto. split; auto. rewrite E2. cbn [bind]. do 3 f_equal.
      clear. induction d; cbn; auto. f_equal. auto.
    - exists d, q, ls. auto. }
  destruct X as (d' & q' & ls' & Q' & QQ' & L' & ->). cbn [bind].
  destruct (per_column_spec ls' q' (proj1 Q')) as (gs & E3 & _). rewrite E3. cbn [bind].
  destruct avoid; [|cbn [bind]; eauto].
  assert (LDD : laid frags (b0 :: boxes) ragged tolerance P q' gs) by (exists ls'; auto).
  destruct (repair_total frags (b0 :: boxes) ragged tolerance P N d' cols lead ae (LN d') fuel gs q' Q' LDD) as (out & ->); [|cbn [bind]; eauto].
  pose proof (asc_ge _ N (proj1 Q')). destruct QQ as [->| ->], QQ' as [->| ->]; lia.
Qed.
End Total.

Section Breaks.
Context {ENV : Env QcNum}.
Open Scope Qc_scope.
Lemma sums_boxes just wd st sh l wd' st' sh' : sums just wd st sh l wd' st' sh' ->
  forall b, In b (map snd l) -> kb_no_break b = false /\ (just = false -> kb_stretch b = st).
Proof.
  induction 1 as [|wd st sh f b r wd' st' sh' A B C D E F S IH]; intros x; [intros []|]. intros [<-|I]; [auto|].
  destruct (IH x I) as (X & Y). split; auto. intros ->. rewrite (Y eq_refl). cbn. apply Qcplus_0_r.
Qed.
Lemma try_fit_total ts width P ragged bs :
  (forall t e, optimum_fit width t P ragged bs = Err e -> e = ENoFeasible) ->
  In TInf ts -> (exists brs, optimum_fit width TInf P ragged bs = Ok brs) ->
  exists brs, try_fit ts width P ragged bs = Ok brs.
Proof.
  intros E I (brs & O). induction ts as [|t ts IH]; [destruct I|]. cbn.
  destruct (optimum_fit width t P ragged bs) as [x|e] eqn:F; [eauto|]. rewrite (E _ _ F) in *.
  destruct I as [->|I]; [congruence|auto].
Qed.
Lemma tolerances_inf (tolerance : Qc) : 0 < tolerance -> In TInf (@tolerances QcNum tolerance).
Proof.
  intros H. unfold tolerances. apply in_or_app. right. left. replace (@nltb QcNum n0 tolerance) with true; auto. symmetry. apply Qcltb_lt, H.
Qed.
Lemma nth_split_at {A} (l : list A) i : (i < List.length l)%nat -> exists a x r, l = a ++ [] ++ x :: r /\ List.length a = i.
Proof.
  intros H. destruct (nth_error l i) as [x|] eqn:E; [|apply nth_error_None in E; lia].
  destruct (nth_error_split _ _ E) as (a & r & -> & L). exists a, x, r. auto.
Qed.
Lemma not_lt (a b : Qc) : b <= a -> Qcltb a b = false.
Proof. intros H. destruct (Qcltb a b) eqn:X; auto. apply Qcltb_lt in X. apply Qcle_not_lt in H. contradiction. Qed.
Lemma m1_le (r : Qc) : 0 <= r -> Qcltb r (Q2Qc (-1)) = false /\ @nltb QcNum (nZ (-1)) (@nmin QcNum r n0) = true.
Proof.
  intros H. split; [apply not_lt; eapply Qcle_trans; [|exact H]; discriminate|].
  unfold nmin. destruct (@nltb QcNum n0 r); [reflexivity|]. apply Qcltb_lt. eapply Qclt_le_trans; [|exact H]. reflexivity.
Qed.
Lemma Qc_div_nonneg (a b : Qc) : 0 <= a -> 0 < b -> 0 <= a / b.
Proof.
  intros A B. apply Qcnot_lt_le. intros C.
  assert (X : a / b * b < 0 * b) by (apply Qcmult_lt_compat_r; [exact B|exact C]).
  rewrite Qcmult_0_l in X. rewrite (Qcmult_comm (a / b) b), Qcmult_div_r in X by (intros ->; discriminate B).
  apply Qcle_not_lt in A. contradiction.
Qed.
Section Ragged.
Variables (full : list (fragment * kbox)) (width : nat -> Qc) (st0 wd' st' sh' tolerance : Qc) (P : @params QcNum).
Hypothesis SU : sums false 0 st0 0 full wd' st' sh'.
Hypothesis NE : full <> [].
Hypothesis UP : 0 < st0.
Lemma ragged_ratio_total n b : In b (map snd full) -> exists r, node_ratio width true n b = Ok r.
Proof.
  intros I. destruct (sums_boxes _ _ _ _ _ _ _ _ SU b I) as (_ & E). specialize (E eq_refl).
  unfold node_ratio, ratio_fn, ratio_ragged, pdiv. rewrite E. destruct (nleb _ _); [|eauto].
  replace (@neqb QcNum st0 n0) with false; [eauto|]. symmetry. apply Qceqb_neq. intros ->. discriminate UP.
Qed.
Lemma ragged_no_err t e : optimum_fit width t P true (map snd full) = Err e -> e = ENoFeasible.
Proof.
  intros H. apply optimum_fit_err in H as [->|(n & x & I & R)]; auto. destruct (ragged_ratio_total n x I). congruence.
Qed.
Lemma ragged_breaks_total : 0 < tolerance -> (forall f k, In f (map fst full) -> bw f <= width k) ->
  exists brs, find_breaks (map snd full) width true tolerance P = Ok brs.
Proof.
  intros TP FIT.
  assert (ONE : forall k i r, (i < List.length (map snd full))%nat -> line_ratio (map snd full) width true k i (S i) r -> 0 <= r).
  { intros k i r LI LR. rewrite map_length in LI. destruct (nth_split_at full i LI) as (a & x & rest & EF & LA). subst i.
    assert (LR' : line_ratio (map snd full) width true k (List.length a) (List.length a + S (List.length (@nil (@fragment QcNum * @kbox QcNum)))) r).
    { cbn [List.length]. rewrite Nat.add_1_r. exact LR. }
    destruct (line_ratio_sums false true width full a [] rest x st0 wd' st' sh' k r SU ltac:(discriminate) EF LR') as (f & RR).
    assert (Ix : In x full). { rewrite EF. cbn. apply in_or_app. right. left. reflexivity. }
    destruct (sums_boxes _ _ _ _ _ _ _ _ SU (snd x)) as (_ & EU); [apply in_map; auto|]. rewrite (EU eq_refl) in RR.
    assert (N : natural (map fst (@nil (@fragment QcNum * @kbox QcNum))) (fst x) = bw (fst x)). { unfold natural. cbn. apply Qcplus_0_l. }
    rewrite N in RR. assert (B : bw (fst x) <= width k) by (apply FIT, in_map, Ix).
    assert (NN : 0 <= width k - (f + bw (fst x)) + f). { revert B. generalize (bw (fst x)) (width k) (f : Qc). clear. intros. qc. }
    inversion RR as [H1 H2 EQ|H1 EQ]; subst.
    - apply Qc_div_nonneg; auto.
    - exfalso. apply Qcleb_le in NN. change (Qcleb 0 (width k - (f + bw (fst x)) + f) = false) in H1. congruence. }
  unfold find_breaks. destruct (map snd full) as [|b0 l0] eqn:EM; [destruct full; [congruence|discriminate]|]. rewrite <- EM in *. clear b0 l0 EM.
  apply try_fit_total; [apply ragged_no_err|apply tolerances_inf, TP|].
  apply optimum_fit_total.
  - apply QcNum_ordered.
  - intros b I. apply (sums_boxes _ _ _ _ _ _ _ _ SU b I).
  - intros n b. apply ragged_ratio_total.
  - intros k i r L LR. split; [|reflexivity]. apply m1_le. eapply ONE; [|exact LR]. lia.
  - intros k i r L LR. apply m1_le. eapply ONE; [|exact LR]. lia.
  - destruct full; [congruence|discriminate].
Qed.
End Ragged.
Section Just.
Variables (full : list (fragment * kbox)) (width : nat -> Qc) (wd' st' sh' tolerance : Qc) (P : @params QcNum).
Hypothesis SU : sums true 0 0 0 full wd' st' sh'.
Hypothesis NE : full <> [].
Hypothesis WP : forall k, 0 < width k.
Lemma just_ratio_total n b : exists r, node_ratio width false n b = Ok r.
Proof.
  unfold node_ratio, ratio_fn, ratio_justified, pdiv.
  replace (neqb (width (n_line n) : @num QcNum) n0) with false; [destruct (neqb _ _); [destruct (neqb _ _); cbn; eauto|eauto]|].
  symmetry. apply Qceqb_neq. intros C. specialize (WP (n_line n)). rewrite C in WP. discriminate WP.
Qed.
Lemma just_no_err t e : optimum_fit width t P false (map snd full) = Err e -> e = ENoFeasible.
Proof. intros H. apply optimum_fit_err in H as [->|(n & x & I & R)]; auto. destruct (just_ratio_total n x). congruence. Qed.
Lemma just_breaks_total : 0 < tolerance -> (forall f, In f (map fst full) -> 0 <= bw f) ->
  exists brs, find_breaks (map snd full) width false tolerance P = Ok brs.
Proof.
  intros TP FIT.
  assert (ONE : forall k i r, (i < List.length (map snd full))%nat -> line_ratio (map snd full) width false k i (S i) r -> 0 <= r).
  { intros k i r LI LR. rewrite map_length in LI. destruct (nth_split_at full i LI) as (a & x & rest & EF & LA). subst i.
    assert (LR' : line_ratio (map snd full) width false k (List.length a) (List.length a + S (List.length (@nil (@fragment QcNum * @kbox QcNum)))) r).
    { cbn [List.length]. rewrite Nat.add_1_r. exact LR. }
    destruct (line_ratio_sums true false width full a [] rest x 0 wd' st' sh' k r SU ltac:(reflexivity) EF LR') as (f & s1 & s2 & RR & SS).
    destruct (SS eq_refl) as (E1 & E2). cbn in E1, E2. rewrite Qcmult_0_l in E1, E2. subst s1 s2. clear SS.
    assert (Ix : In x full). { rewrite EF. cbn. apply in_or_app. right. left. reflexivity. }
    assert (N : natural (map fst (@nil (@fragment QcNum * @kbox QcNum))) (fst x) = bw (fst x)). { unfold natural. cbn. apply Qcplus_0_l. }
    rewrite N in RR. assert (B : 0 <= bw (fst x)) by (apply FIT, in_map, Ix).
    assert (EN : forall f n : Qc, f + n - f = n) by (intros; ring).
    inversion RR as [H1 H2 EQ|H1 H2 EQ|H1 H2 EQ|H1 H2 H3 EQ]; cbn [nsub ndiv nadd QcNum] in *; rewrite ?EN in *.
    - discriminate H2.
    - discriminate H2.
    - apply Qcle_refl.
    - apply Qcle_trans with (y := 0 + 0); [discriminate|]. apply Qcplus_le_compat; [discriminate|]. apply Qc_div_nonneg; auto. }
  unfold find_breaks. destruct (map snd full) as [|b0 l0] eqn:EM; [destruct full; [congruence|discriminate]|]. rewrite <- EM in *. clear b0 l0 EM.
  apply try_fit_total; [apply just_no_err|apply tolerances_inf, TP|].
  apply optimum_fit_total.
  - apply QcNum_ordered.
  - intros b I. apply (sums_boxes _ _ _ _ _ _ _ _ SU b I).
  - intros n b _. apply just_ratio_total.
  - intros k i r L LR. split; [|reflexivity]. apply m1_le. eapply ONE; [|exact LR]. lia.
  - intros k i r L LR. apply m1_le. eapply ONE; [|exact LR]. lia.
  - destruct full; [congruence|discriminate].
Qed.
End Just.
End Breaks.
