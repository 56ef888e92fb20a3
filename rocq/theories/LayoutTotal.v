(** * LayoutTotal: paragraphs and automatic pages can always be laid out *)
From Coq Require Import QArith Qcanon Qround Lqa.
From Verif Require Import Base Num Fonts State Style Words Parse WordsSpec WordProofs Render RenderSpec RenderProofs WordWidth WordOps
  Firstfit LineSpec FirstfitProofs FirstfitWidth Properties_Firstfit KnuthPlass Optimum OptimumProofs OptimumTotal Properties_Optimum
  Common Draw Layout LayoutSpec LayoutProofs LayoutText LayoutPages LayoutRoom FontsUsed Document DocumentSpec DocumentProofs Fuel Properties_Words.
Open Scope nat_scope.
Local Open Scope list_scope.

(** ** The first word of a line has no kerning before it *)
Section First.
Context {NUM : Num} {ENV : Env NUM}.
Definition clear_box (b : box) : Prop :=
  match b with
  | BSlug s => slug_has_init_kern s = false
  | BMixed ((s, _) :: _) _ => slug_has_init_kern s = false
  | BMixed [] _ => True
  end.
Definition clear_word (w : word) : Prop := match w_boxes w with b :: _ => clear_box b | [] => True end.
Fixpoint clear (w : wordlike) : Prop :=
  match w with WBox b => clear_box b | WWord x => clear_word x | WCmd w _ => clear w end.
Lemma kern_from_ge tab l : forall j i k, In (i, k) (kern_from tab j l) -> j <= i.
Proof.
  induction l as [|[a b] l IH]; intros j i k; cbn [kern_from]; [intros []|].
  destruct (ntruthy _); cbn [In].
  - intros [X|X]; [injection X as -> _; lia|apply IH in X; lia].
  - intros X. apply IH in X. lia.
Qed.
Lemma slug_new_clear t st : slug_has_init_kern (slug_new t st None) = false.
Proof.
  unfold slug_has_init_kern, slug_new. cbn [sl_kern]. unfold font_kern. destruct (kerntab _) as [tab|]; [|reflexivity].
  destruct (kern tab t None) as [|[i k] r] eqn:E; [reflexivity|]. destruct i as [|i]; [|reflexivity]. exfalso.
  assert (X : In (0, k) (kern_from tab 1 (pairwise t))) by (change (kern_from tab 1 (pairwise t)) with (kern tab t None); rewrite E; left; reflexivity).
  apply kern_from_ge in X. lia.
Qed.
Lemma word_new_clear s st w : word_new s st None = Ok w -> clear_word w.
Proof.
  unfold word_new. destruct (tspace_parse s st None) as [s' t]. intros E. apply bind_ok in E as (parts & _ & E).
  apply bind_ok in E as (bl & E1 & E). apply Ok_inj in E. subst w. unfold clear_word. cbn [w_boxes].
  destruct parts as [|[|c p] parts]; cbn [slugs_new] in E1; [apply Ok_inj in E1; subst; exact I|discriminate|].
  apply bind_ok in E1 as (r & _ & E1). apply Ok_inj in E1. subst bl. cbn [clear_box]. apply slug_new_clear.
Qed.
Lemma simple_words_clear fuel t st ws x : simple_words fuel t st None = Ok (ws, x) ->
  match ws with w :: _ => clear_word w | [] => match x with inr w => clear_word w | inl _ => True end end.
Proof.
  destruct fuel as [|fuel]; cbn [simple_words]; [discriminate|]. destruct (split_word t) as [[w r]|].
  2:{ intros E. apply Ok_inj in E. injection E as <- <-. exact I. }
  intros E. apply bind_ok in E as (y & Y & E). apply word_new_clear in Y. destruct r.
  - apply Ok_inj in E. injection E as <- <-. exact Y.
  - apply bind_ok in E as (z & _ & E). apply Ok_inj in E. injection E as <- <-. exact Y.
Qed.
Lemma segments_first parts : forall seg prev st cmds, exists c l, fst (fst (segments parts seg prev st cmds)) = (seg, c) :: l.
Proof.
  induction parts as [|[cmd t] parts IH]; intros seg prev st cmds; cbn [segments]; [cbn; eauto|].
  destruct t; [apply IH|]. destruct (segments _ _ _ _ _) as [[l p] q]. cbn. eauto.
Qed.
Lemma complete_word_clear it head st w next : complete_word it head st = Ok (w, next) -> clear_word w.
Proof.
  unfold complete_word. destruct (take_parts it) as [parts nx]. destruct parts as [|p parts].
  - intros E. apply bind_ok in E as (y & Y & E). apply Ok_inj in E. injection E as <- <-. eapply word_new_clear; eauto.
  - set (ps := match nx with Some _ => cut_parts (p :: parts) | None => p :: parts end).
    destruct (segments_first ps (slug_new head st None) (Some (slug_last (slug_new head st None))) st []) as (c & l & H).
    destruct (segments _ _ _ _ _) as [[segs prev] st']. cbn [fst] in H. subst segs. intros E. apply Ok_inj in E. injection E as <- <-.
    cbn. apply slug_new_clear.
Qed.
Lemma parse_loop_clear fuel it st txt x : parse_loop fuel it st txt = Ok x ->
  match fst x with w :: _ => clear w | [] => True end.
Proof.
  destruct fuel as [|fuel]; cbn [parse_loop]; [discriminate|]. destruct txt as [|c txt]; [intros E; apply Ok_inj in E; subst; exact I|].
  intros E. apply bind_ok in E as ([ws lst] & S & E). apply simple_words_clear in S.
  assert (FIN : forall w st it x, (ws = [] -> clear_word w) ->
    match it with
    | [] => Ok (map WWord ws ++ [WWord w], true)
    | (cmd, t) :: it' => do y <- parse_loop fuel it' (apply cmd st) t; Ok (map WWord ws ++ with_cmd (WWord w) cmd :: fst y, snd y)
    end = Ok x -> match fst x with w :: _ => clear w | [] => True end).
  { clear E x. intros w st0 it0 x C E. destruct it0 as [|[cmd t] it0].
    - apply Ok_inj in E. subst x. destruct ws as [|w0 ws]; cbn; [apply C; reflexivity|exact S].
    - apply bind_ok in E as (y & _ & E). apply Ok_inj in E. subst x. destruct ws as [|w0 ws]; cbn [fst map app]; [|exact S].
      destruct cmd; cbn [with_cmd clear]; apply C; reflexivity. }
  destruct lst as [head|w].
  - apply bind_ok in E as ([w next] & CW & E). apply complete_word_clear in CW.
    destruct next as [[r it']|].
    + destruct r as [|c' r].
      * eapply FIN; [|exact E]. auto.
      * apply bind_ok in E as (z & _ & E). apply Ok_inj in E. subst x. destruct ws as [|w0 ws]; cbn; [exact CW|exact S].
    + apply Ok_inj in E. subst x. destruct ws as [|w0 ws]; cbn; [exact CW|exact S].
  - eapply FIN; [|exact E]. intros ->. exact S.
Qed.
Lemma into_words_clear ps st cmd ws ex : into_words ps st = Ok (cmd, ws, ex) -> match ws with w :: _ => clear w | [] => True end.
Proof.
  unfold into_words. destruct (fold_commands ps st []) as [[c x] st']. destruct x as [[t it]|].
  - intros E. apply bind_ok in E as (y & Y & E). apply Ok_inj in E. injection E as <- <- <-. eapply parse_loop_clear; eauto.
  - intros E. apply Ok_inj in E. injection E as <- <- <-. exact I.
Qed.
(** ** Every fragment was made from a text by measuring it *)
Definition fresh_slug (s : slug) : Prop := exists t prev, s = slug_new t (sl_state s) prev.
Definition fresh_box (b : box) : Prop :=
  match b with BSlug s => fresh_slug s | BMixed l _ => Forall (fun p => fresh_slug (fst p)) l end.
Definition fresh_wl (w : wordlike) : Prop := Forall fresh_box (wl_boxes w).
Lemma slug_new_fresh t st prev : fresh_slug (slug_new t st prev).
Proof. exists t, prev. reflexivity. Qed.
Lemma word_new_fresh s st prev w : word_new s st prev = Ok w -> fresh_wl (WWord w).
Proof.
  unfold word_new. destruct (tspace_parse s st prev) as [s' t]. intros E. apply bind_ok in E as (parts & _ & E).
  apply bind_ok in E as (bl & E1 & E). apply Ok_inj in E. subst w. unfold fresh_wl. cbn [wl_boxes w_boxes].
  revert prev bl E1. induction parts as [|[|c p] parts IH]; intros prev bl E1; cbn [slugs_new] in E1; [apply Ok_inj in E1; subst; constructor|discriminate|].
  apply bind_ok in E1 as (r & R & E1). apply Ok_inj in E1. subst bl. constructor; [apply slug_new_fresh|]. eapply IH; exact R.
Qed.
Lemma simple_words_fresh fuel : forall t st prev ws x, simple_words fuel t st prev = Ok (ws, x) ->
  Forall (fun w => fresh_wl (WWord w)) ws /\ match x with inr w => fresh_wl (WWord w) | inl _ => True end.
Proof.
  induction fuel as [|fuel IH]; intros t st prev ws x; cbn [simple_words]; [discriminate|]. destruct (split_word t) as [[w r]|].
  2:{ intros E. apply Ok_inj in E. injection E as <- <-. split; [constructor|exact I]. }
  intros E. apply bind_ok in E as (y & Y & E). apply word_new_fresh in Y. destruct r.
  - apply Ok_inj in E. injection E as <- <-. split; [constructor|exact Y].
  - apply bind_ok in E as ([ws' x'] & Z & E). apply IH in Z as [A B]. apply Ok_inj in E. injection E as <- <-. split; [constructor; assumption|exact B].
Qed.
Lemma segments_fresh parts : forall seg prev st cmds, fresh_slug seg ->
  Forall (fun p => fresh_slug (fst p)) (fst (fst (segments parts seg prev st cmds))).
Proof.
  induction parts as [|[cmd t] parts IH]; intros seg prev st cmds F; cbn [segments]; [repeat constructor; exact F|].
  destruct t as [|c t]; [apply IH, F|].
  match goal with |- context [segments parts ?s ?p ?q ?r] => specialize (IH s p q r (slug_new_fresh _ _ _)) end.
  destruct (segments _ _ _ _ _) as [[l p] q]. cbn in *. constructor; assumption.
Qed.
Lemma complete_word_fresh it head st w next : complete_word it head st = Ok (w, next) -> fresh_wl (WWord w).
Proof.
  unfold complete_word. destruct (take_parts it) as [parts nx]. destruct parts as [|p parts].
  - intros E. apply bind_ok in E as (y & Y & E). apply Ok_inj in E. injection E as <- <-. eapply word_new_fresh; eauto.
  - set (ps := match nx with Some _ => cut_parts (p :: parts) | None => p :: parts end).
    pose proof (segments_fresh ps (slug_new head st None) (Some (slug_last (slug_new head st None))) st [] (slug_new_fresh _ _ _)) as H.
    destruct (segments _ _ _ _ _) as [[segs prev] st']. cbn [fst] in H. intros E. apply Ok_inj in E. injection E as <- <-.
    constructor; [exact H|constructor].
Qed.
Lemma parse_loop_fresh fuel : forall it st txt x, parse_loop fuel it st txt = Ok x -> Forall fresh_wl (fst x).
Proof.
  induction fuel as [|fuel IH]; intros it st txt x; cbn [parse_loop]; [discriminate|]. destruct txt as [|c txt]; [intros E; apply Ok_inj in E; subst; constructor|].
  intros E. apply bind_ok in E as ([ws lst] & S & E). apply simple_words_fresh in S as [S1 S2].
  assert (S3 : Forall fresh_wl (map WWord ws)) by (apply Forall_map; exact S1). clear S1.
  assert (FIN : forall w st it x, fresh_wl (WWord w) ->
    match it with
    | [] => Ok (map WWord ws ++ [WWord w], true)
    | (cmd, t) :: it' => do y <- parse_loop fuel it' (apply cmd st) t; Ok (map WWord ws ++ with_cmd (WWord w) cmd :: fst y, snd y)
    end = Ok x -> Forall fresh_wl (fst x)).
  { clear E x. intros w st0 it0 x C E. destruct it0 as [|[cmd t] it0].
    - apply Ok_inj in E. subst x. apply Forall_app. split; [exact S3|]. constructor; [exact C|constructor].
    - apply bind_ok in E as (y & Y & E). apply IH in Y. apply Ok_inj in E. subst x. cbn [fst]. apply Forall_app. split; [exact S3|].
      constructor; [|exact Y]. destruct cmd; exact C. }
  destruct lst as [head|w].
  - apply bind_ok in E as ([w next] & CW & E). apply complete_word_fresh in CW.
    destruct next as [[r it']|].
    + destruct r as [|c' r].
      * eapply FIN; [exact CW|exact E].
      * apply bind_ok in E as (z & Z & E). apply IH in Z. apply Ok_inj in E. subst x. cbn [fst]. apply Forall_app. split; [exact S3|]. constructor; assumption.
    + apply Ok_inj in E. subst x. apply Forall_app. split; [exact S3|]. constructor; [exact CW|constructor].
  - eapply FIN; [exact S2|exact E].
Qed.
Lemma into_words_fresh ps st cmd ws ex : into_words ps st = Ok (cmd, ws, ex) -> Forall fresh_wl ws.
Proof.
  unfold into_words. destruct (fold_commands ps st []) as [[c x] st']. destruct x as [[t it]|].
  - intros E. apply bind_ok in E as (y & Y & E). apply Ok_inj in E. injection E as <- <- <-. eapply parse_loop_fresh; eauto.
  - intros E. apply Ok_inj in E. injection E as <- <- <-. constructor.
Qed.
End First.

(** ** Sizes are positive *)
Section Total.
Context {ENV : Env QcNum}.
Notation pos := (fun (_ : font) (z : @num QcNum) => (0 < z)%Qc).
Notation cols_of cs := (fun i => (c_width (cf_box (cs i)), cf_free (cs i))) (only parsing).
Lemma pos_neq (z : Qc) : (0 < z)%Qc -> @neqb QcNum z n0 = false.
Proof. intros H. apply Qceqb_neq. intros ->. discriminate H. Qed.
Lemma slug_indent_total s (x : @num QcNum) : slug_in pos s -> slug_has_init_kern s = false -> exists s', slug_indent s x = Ok s'.
Proof.
  intros [P _] C. unfold slug_indent. destruct (@ntruthy QcNum x); [|eauto]. rewrite C. unfold pdiv. rewrite pos_neq by exact P. cbn. eauto.
Qed.
Lemma box_indent_total b (x : @num QcNum) : box_in pos b -> clear_box b -> exists b', box_indent b x = Ok b'.
Proof.
  destruct b as [s|[|[s c] l] st]; cbn [box_in clear_box box_indent]; intros P C.
  - destruct (slug_indent_total s x P C) as (s' & ->). cbn. eauto.
  - destruct (@ntruthy QcNum x); eauto.
  - destruct (@ntruthy QcNum x); [|eauto]. destruct P as [P _]. inversion P as [|? ? P1 _]; subst.
    destruct (slug_indent_total s x (proj1 P1) C) as (s' & ->). cbn. eauto.
Qed.
Lemma wl_indent_total w (x : @num QcNum) : wl_in pos w -> has_text w -> clear w -> exists w', wl_indent w x = Ok w'.
Proof.
  induction w as [b|[bl t st]|w IH c]; cbn [wl_in clear wl_indent]; intros P T C.
  - destruct (box_indent_total b x P C) as (b' & ->). cbn. eauto.
  - destruct P as [P S]. unfold word_indent. destruct (@ntruthy QcNum x); [|cbn; eauto]. cbn [w_boxes w_tail w_state] in *.
    destruct bl as [|b bl].
    + destruct t as [t|]; [|destruct T as [T|T]; exfalso; apply T; reflexivity].
      unfold tspace_stretch, pdiv. rewrite pos_neq by exact S. cbn. eauto.
    + inversion P; subst. destruct (box_indent_total b x) as (b' & ->); auto. cbn. eauto.
  - destruct P as [P Q]. destruct (@ntruthy QcNum x); [|eauto]. destruct IH as (w' & ->); auto. cbn. eauto.
Qed.
Lemma indent_first_total ps st cmd ws ex (x : @num QcNum) : all_split -> into_words ps st = Ok (cmd, ws, ex) -> wls_in pos ws ->
  exists ws', indent_first ws x = Ok ws'.
Proof.
  intros HY E P. destruct ws as [|w r]; cbn [indent_first]; [eauto|]. pose proof (into_words_clear _ _ _ _ _ E) as C.
  assert (T := pw_has_text _ HY (pw_parsed _ _ _ _ _ E)). inversion P; subst. inversion T; subst.
  destruct (wl_indent_total w x) as (w' & ->); auto. cbn. eauto.
Qed.
(** ** First-fit *)
Lemma extend_total w : wl_in pos w -> forall x : @num QcNum, exists w', wl_extend_tail w x = Ok w'.
Proof.
  induction w as [b|[bl t st]|w IH c]; cbn [wl_in wl_extend_tail]; intros P x.
  - eauto.
  - destruct P as [_ S]. unfold word_extend_tail. cbn [w_tail w_state w_boxes] in *. destruct t as [t|]; [|cbn; eauto].
    destruct (@ntruthy QcNum x); [|cbn; eauto]. unfold tspace_stretch, pdiv. rewrite pos_neq by exact S. cbn. eauto.
  - destruct P as [P _]. destruct (wl_tail w); [|eauto]. destruct (@ntruthy QcNum x); [|eauto]. destruct (IH P x) as (w' & ->). cbn. eauto.
Qed.
Lemma mapM_total {A B} (f : A -> res B) l : Forall (fun a => exists b, f a = Ok b) l -> exists r, mapM f l = Ok r.
Proof.
  induction 1 as [|a l (b & E) _ (r & R)]; cbn [mapM]; [eauto|]. rewrite E. cbn [bind]. rewrite R. cbn. eauto.
Qed.
Lemma justify_total l : wls_in pos (l_words l) -> exists l', justify l = Ok l'.
Proof.
  intros P. unfold justify. destruct (pdiv _ _) as [per|e]; [|eauto].
  destruct (mapM_total (fun w => wl_extend_tail w (nmul per (st_size (wl_state w)))) (l_words l)) as (r & ->).
  - eapply Forall_impl; [|exact P]. intros w H. apply extend_total, H.
  - cbn. eauto.
Qed.
Lemma pos_sized w : wl_in pos w -> sized w.
Proof.
  intros H. unfold sized. apply wl_boxes_in in H. eapply Forall_impl; [|exact H]. intros b B. apply box_state_in in B.
  apply Qclt_le_weak. exact B.
Qed.
Lemma ff_total ws cols ae (lead : Qc) av j : hyphens_nonneg -> wls_in pos ws -> (0 < lead)%Qc -> (forall i, 0 <= snd (cols i))%Qc ->
  exists n, forall fuel, n <= fuel -> exists cs, ff_shape fuel ws cols ae lead av j = Ok cs.
Proof.
  intros HN P L R. exists (2 * size ws + 2). intros fuel F.
  assert (S : Forall sized ws) by (eapply Forall_impl; [apply pos_sized|exact P]).
  destruct (C37_firstfit_total_partial ENV ws cols ae lead av fuel HN S L R F) as (cs & E). destruct j; [|eauto].
  pose proof (ff_shape_in pos _ _ _ _ _ _ _ _ P E) as I. unfold ff_shape in *. apply bind_ok in E as (cs' & E1 & E). apply Ok_inj in E. subst cs'.
  rewrite E1. cbn [bind]. apply mapM_total. eapply Forall_impl; [|exact I]. intros ls LI. apply mapM_total.
  eapply Forall_impl; [|exact LI]. intros l. apply justify_total.
Qed.
Lemma ff_ne fuel (ws : list (@wordlike QcNum)) cols ae lead av j cs : ff_shape fuel ws cols ae lead av j = Ok cs -> cs <> [].
Proof.
  unfold ff_shape. intros E. apply bind_ok in E as (x & E1 & E).
  assert (X : x <> []).
  { assert (OL : forall fuel ws ls u (cols : nat -> Qc * Qc) (lead : Qc) r, orphan_loop fuel ws ls u cols lead = Ok r -> r <> []).
    { clear. induction fuel as [|fuel IH]; cbn [orphan_loop]; intros ws ls u cols lead r E; [discriminate|].
      apply bind_ok in E as (b & _ & E). destruct (b_rest b).
      - apply bind_ok in E as (y & _ & E). apply Ok_inj in E. subst. discriminate.
      - destruct (_ && _ && _).
        + destruct u; [|discriminate]. apply bind_ok in E as (y & _ & E). destruct (_ =? 1); [apply Ok_inj in E; subst; discriminate|]. eapply IH; eauto.
        + apply Ok_inj in E. subst. discriminate. }
    destruct av.
    - unfold shape_orphans in E1. apply bind_ok in E1 as (b & _ & E1). destruct (b_rest b).
      + destruct (_ && _); eapply OL; eauto.
      + apply Ok_inj in E1. subst. discriminate.
    - destruct fuel; cbn [shape_simple] in E1; [discriminate|]. apply bind_ok in E1 as (b & _ & E1). destruct (b_rest b).
      + apply bind_ok in E1 as (y & _ & E1). apply Ok_inj in E1. subst. discriminate.
      + apply Ok_inj in E1. subst. discriminate. }
  destruct j; [|apply Ok_inj in E; subst; exact X].
  destruct x as [|c x]; [congruence|]. cbn [mapM] in E. apply bind_ok in E as (y & _ & E). apply bind_ok in E as (z & _ & E). apply Ok_inj in E. subst. discriminate.
Qed.

Lemma stable_from {A} (f : nat -> res A) (P : A -> Prop) : stable f -> (exists n, forall fuel, n <= fuel -> exists x, f fuel = Ok x /\ P x) ->
  exists n x, P x /\ forall fuel, n <= fuel -> f fuel = Ok x.
Proof.
  intros F (n & H). destruct (H n (le_n n)) as (x & E & PX). exists n, x. split; [exact PX|]. intros fuel L.
  rewrite (F n fuel L), E; [reflexivity|]. rewrite E. discriminate.
Qed.
(** what a paragraph needs of the line breaker; [F], [A], [D]: what is known of the fonts,
    the lines of the text and the columns *)
Definition breaks_well (F : font -> @num QcNum -> Prop) (A : list passage -> Prop) (D : @column QcNum -> Prop) (p : @para QcNum) (lead : @num QcNum) : Prop :=
  forall g st cmd ws ex ws' (cs : nat -> colfill) (ae : bool), A g -> psg_in F g -> st_in F st ->
    into_words g st = Ok (cmd, ws, ex) -> indent_first ws (p_indent p) = Ok ws' -> wls_in F ws' ->
    (forall i, 0 <= cf_free (cs i))%Qc -> (forall i, D (cf_box (cs i))) ->
    exists n, forall fuel, n <= fuel -> exists chunks, shape fuel p ws' (cols_of cs) ae lead = Ok chunks /\ chunks <> [].
Lemma add_chunks_rev (cs : nat -> @colfill QcNum) l c r : rev (add_chunks cs l) = c :: r -> exists i s, c = cf_add (cs i) s.
Proof.
  intros E. assert (I : In c (add_chunks cs l)) by (apply in_rev; rewrite E; left; reflexivity).
  apply In_nth_error in I as (i & N). apply add_chunks_nth in N as (s & _ & ->). eauto.
Qed.
Lemma para_total (F : font -> @num QcNum -> Prop) A D h p (lead : @num QcNum) : all_split -> (forall f z, F f z -> 0 < z)%Qc ->
  breaks_well F A D p lead -> (0 < lead)%Qc -> (lead <= h)%Qc ->
  forall gs cs st, Forall A gs -> Forall (psg_in F) gs -> st_in F st -> roomy_from h cs -> (forall i, D (cf_box (cs i))) ->
  exists n out, forall fuel, n <= fuel -> para_loop fuel p gs cs st lead = Ok out.
Proof.
  intros HY FPOS BW LP LH. induction gs as [|g gs IH]; intros cs st GA G S R DC; cbn [para_loop]; [exists 0; eauto|].
  inversion G as [|? ? G1 G2]; subst. inversion GA as [|? ? A1 A2]; subst.
  destruct (C24_words_total QcNum ENV g st HY) as (cmd & ws & ex & W).
  pose proof (into_words_in F _ _ _ G1 S W) as [CI WI]. cbn [fst snd] in CI, WI.
  assert (WP : wls_in pos ws) by (eapply Forall_impl; [|exact WI]; intros w; apply wl_mono; exact FPOS).
  destruct (indent_first_total g st cmd ws ex (p_indent p) HY W WP) as (ws' & I).
  pose proof (indent_first_in F _ _ _ WI I) as WI'.
  set (ae := match cf_blocks (cs 0) with [] => false | _ => true end).
  destruct (stable_from (fun n => shape n p ws' (cols_of cs) ae lead) (fun c => c <> [])) as (n1 & chunks & NE & SH).
  { apply shape_stable. }
  { eapply BW; eauto. intros i. apply R. }
  assert (FP : forall fuel, n1 <= fuel -> fill_paragraph fuel p g cs st lead
     = Ok (add_chunks cs (map (chunk lead (p_align p)) chunks), states_after chunks (apply cmd st), ex)).
  { intros fuel L. unfold fill_paragraph. rewrite W. cbn [bind]. rewrite I. cbn [bind].
    fold ae. rewrite SH by exact L. reflexivity. }
  destruct (roomy_shape h n1 p lead cs g st cmd ws ws' ex chunks LP LH R W I (SH n1 (le_n _))) as (_ & RC).
  assert (ST : st_in F (states_after chunks (apply cmd st))).
  { apply states_after_in; [apply apply_in; assumption|]. eapply shape_chunks_in; [exact WI'|exact (SH n1 (le_n _))]. }
  set (done := add_chunks cs (map (chunk lead (p_align p)) chunks)) in *.
  assert (LD : List.length done = List.length chunks) by (unfold done; rewrite add_chunks_length, map_length; reflexivity).
  destruct (rev done) as [|col filled] eqn:RV.
  { exfalso. apply NE. apply (f_equal (@List.length _)) in RV. rewrite rev_length, LD in RV. destruct chunks; [reflexivity|discriminate]. }
  destruct ex.
  2:{ exists n1, (rev filled ++ [col]). intros fuel L. rewrite (FP fuel L). cbn [bind]. rewrite RV. reflexivity. }
  assert (CR : roomy h col).
  { assert (IC : In col done) by (apply in_rev; rewrite RV; left; reflexivity). apply In_nth_error in IC as (i & N).
    apply add_chunks_nth in N as (s & N & ->). rewrite nth_error_map in N. destruct (nth_error chunks i) as [ls|] eqn:NE'; [|discriminate].
    injection N as <-. apply RC, NE'. }
  assert (DB : D (cf_box col)). { destruct (add_chunks_rev _ _ _ _ RV) as (i & s & ->). cbn [cf_add cf_box]. apply DC. }
  destruct (IH (scons col (sdrop (List.length done) cs)) (states_after chunks (apply cmd st)) A2 G2 ST) as (n2 & out & H2).
  - apply roomy_next; auto. rewrite LD. destruct chunks; [congruence|cbn; lia].
  - intros [|i]; cbn [scons]; [exact DB|apply DC].
  - exists (Nat.max n1 n2), (rev filled ++ out). intros fuel L. rewrite FP by lia. cbn [bind]. rewrite RV.
    rewrite H2 by lia. reflexivity.
Qed.
(** ** Pages *)
Lemma auto_loop_total (J : (nat -> @colfill QcNum) -> Prop) base blocks : pointwise J ->
  Forall (fun b => forall cs, J cs -> exists n out, (forall fuel, n <= fuel -> block_columns fuel b base cs = Ok out)
     /\ out <> [] /\ J (next_cols out cs)) blocks ->
  forall doc, open_pages doc -> J (flat_todo doc) ->
  exists n x, forall fuel, n <= fuel -> auto_loop fuel blocks base doc = Ok x.
Proof.
  intros PJ B. induction B as [|b r H _ IH]; intros doc O JD; cbn [auto_loop]; [exists 0; eauto|].
  destruct (H _ JD) as (n1 & out & E1 & NE & JN).
  destruct (fill_loop_spec (S (List.length out)) out doc (Nat.lt_succ_diag_r _) NE O) as (comp & doc' & E2 & _ & _ & FT & O').
  assert (FI : fill_into out doc = Ok (comp, doc')) by (unfold fill_into; destruct out; [congruence|exact E2]).
  destruct (IH doc' O') as (n2 & y & E3).
  { eapply PJ; [|exact JN]. intros j. rewrite FT. reflexivity. }
  exists (Nat.max n1 n2). eexists. intros fuel L. rewrite E1 by lia. cbn [bind]. rewrite FI. cbn [bind snd]. rewrite E3 by lia. reflexivity.
Qed.

(** ** Widths are not negative *)
(** no glyph has negative width, also when moved towards the one before *)
Definition glyphs_nonneg : Prop :=
  forall f c, (0 <= @charwidth QcNum ENV f c)%Qc /\ forall a, (0 <= @charwidth QcNum ENV f c + charkern f a c)%Qc.
Lemma glyphs_hyphens : glyphs_nonneg -> hyphens_nonneg.
Proof. intros H f c. apply H. Qed.
Lemma kern_from_nonneg f tab : kerntab f = Some tab -> glyphs_nonneg -> forall s a j,
  (0 <= @nsum QcNum (map (charwidth f) s) + @nsum QcNum (map snd (kern_from tab j (pairwise (a :: s)))))%Qc.
Proof.
  intros T H. induction s as [|c s IH]; intros a j.
  - cbn [map pairwise kern_from]. rewrite nsum_nil_Qc. discriminate.
  - change (pairwise (a :: c :: s)) with ((a, c) :: pairwise (c :: s)). cbn [map kern_from].
    specialize (IH c (S j)). destruct (H f c) as (_ & K). specialize (K a). unfold charkern in K. rewrite T in K.
    rewrite nsum_cons_Qc. destruct (ntruthy (tab a c)) eqn:NT.
    + cbn [map snd]. rewrite nsum_cons_Qc. set (x := nsum _) in *. set (y := nsum _) in *. clearbody x y. qc.
    + apply ntruthy_false in NT. rewrite NT in K. set (x := nsum _) in *. set (y := nsum _) in *. clearbody x y. change (@n0 QcNum) with 0%Qc in K. qc.
Qed.
Lemma slug_new_nonneg t st prev : glyphs_nonneg -> (0 <= @st_size QcNum st)%Qc -> (0 <= sl_width (slug_new t st prev))%Qc.
Proof.
  intros H Z. unfold slug_new. cbn [sl_width]. set (f := st_font st).
  assert (X : (0 <= @nsum QcNum (map (charwidth f) t) + @nsum QcNum (map snd (font_kern f t prev)))%Qc).
  { unfold font_kern. destruct (kerntab f) as [tab|] eqn:T.
    - unfold kern. destruct prev as [p|]; [apply kern_from_nonneg; auto|]. destruct t as [|c t].
      + cbn [map pairwise kern_from]. rewrite nsum_nil_Qc. discriminate.
      + cbn [map]. rewrite nsum_cons_Qc. pose proof (kern_from_nonneg f tab T H t c 1) as K. destruct (H f c) as (C & _).
        set (x := nsum _) in *. set (y := nsum _) in *. clearbody x y. qc.
    - cbn [map]. rewrite nsum_nil_Qc. induction t as [|c t IH]; [cbn [map]; rewrite nsum_nil_Qc; discriminate|]. cbn [map]. rewrite nsum_cons_Qc.
      destruct (H f c) as (C & _). set (x := nsum _) in *. clearbody x. qc. }
  unfold font_width. set (x := nsum (map (charwidth f) t)) in *. set (y := nsum (map snd _)) in *. clearbody x y.
  change (0 <= (x / thousand + y / thousand) * st_size st)%Qc. replace (x / thousand + y / thousand)%Qc with ((x + y) / thousand)%Qc by (rewrite !Qcdiv_def; ring).
  assert (M : forall a b : Qc, (0 <= a -> 0 <= b -> 0 <= a * b)%Qc).
  { intros a b A B. rewrite <- (Qcmult_0_l b). apply Qcmult_le_compat_r; auto. }
  apply M; [|exact Z]. rewrite Qcdiv_def. apply M; [exact X|]. unfold Qcle; vm_compute; discriminate.
Qed.
Lemma fresh_nonneg b : glyphs_nonneg -> box_in pos b -> fresh_box b -> (0 <= box_width b)%Qc.
Proof.
  intros H. assert (SL : forall s, slug_in pos s -> fresh_slug s -> (0 <= sl_width s)%Qc).
  { intros s [P _] (t & prev & E). rewrite E. apply slug_new_nonneg; [exact H|]. apply Qclt_le_weak, P. }
  destruct b as [s|l st]; cbn [box_in fresh_box box_width]; [apply SL|].
  intros [P _]. induction l as [|[s c] l IH]; intros F; cbn [map]; [rewrite nsum_nil_Qc; discriminate|].
  inversion P as [|? ? P1 P2]; subst. inversion F as [|? ? F1 F2]; subst. rewrite nsum_cons_Qc. cbn [fst] in *.
  specialize (SL s (proj1 P1) F1). specialize (IH P2 F2). set (x := nsum _) in *. clearbody x. qc.
Qed.
Definition wide_boxes (w : @wordlike QcNum) : Prop := Forall (fun b => 0 <= box_width b)%Qc (wl_boxes w).
Lemma slug_indent_width s (x : @num QcNum) s' : slug_indent s x = Ok s' -> (0 <= x)%Qc -> (0 <= sl_width s)%Qc -> (0 <= sl_width s')%Qc.
Proof.
  unfold slug_indent. destruct (ntruthy x); [|intros E; apply Ok_inj in E; subst; auto].
  destruct (slug_has_init_kern s); [discriminate|]. intros E X W. apply bind_ok in E as (q & _ & E). apply Ok_inj in E. subst s'. cbn [sl_width].
  change (0 <= sl_width s + x)%Qc. qc.
Qed.
Lemma box_indent_width b (x : @num QcNum) b' : box_indent b x = Ok b' -> (0 <= x)%Qc -> (0 <= box_width b)%Qc -> (0 <= box_width b')%Qc.
Proof.
  destruct b as [s|[|[s c] l] st]; cbn [box_indent]; intros E X W.
  - destruct (slug_indent s x) as [s'|] eqn:I; cbn in E; [|discriminate]. apply Ok_inj in E. subst b'. eapply slug_indent_width; eauto.
  - destruct (ntruthy x); apply Ok_inj in E; subst; exact W.
  - destruct (ntruthy x); [|apply Ok_inj in E; subst; exact W].
    destruct (slug_indent s x) as [s'|] eqn:I; cbn in E; [|discriminate]. apply Ok_inj in E. subst b'. cbn [box_width map fst] in *.
    unfold slug_indent in I. destruct (ntruthy x); [|apply Ok_inj in I; subst; exact W]. destruct (slug_has_init_kern s); [discriminate|].
    apply bind_ok in I as (q & _ & I). apply Ok_inj in I. subst s'. cbn [sl_width]. rewrite nsum_cons_Qc in *.
    change (0 <= sl_width s + x + nsum (map (fun p => sl_width (fst p)) l))%Qc. set (y := nsum _) in *. clearbody y. qc.
Qed.
Lemma wl_indent_width w (x : @num QcNum) : forall w', wl_indent w x = Ok w' -> (0 <= x)%Qc -> wide_boxes w -> wide_boxes w'.
Proof.
  unfold wide_boxes. induction w as [b|[bl t st]|w IH c]; cbn [wl_indent wl_boxes w_boxes]; intros w' E X W.
  - destruct (box_indent b x) as [b'|] eqn:I; cbn in E; [|discriminate]. apply Ok_inj in E. subst w'. cbn [wl_boxes].
    inversion W; subst. constructor; [|constructor]. eapply box_indent_width; eauto.
  - unfold word_indent in E. destruct (ntruthy x); [|apply Ok_inj in E; subst; exact W]. cbn [w_boxes w_tail w_state] in E. destruct bl as [|b bl].
    + destruct t as [t|]; [|discriminate]. destruct (tspace_stretch _ _ _) as [t'|]; cbn in E; [|discriminate]. apply Ok_inj in E. subst w'. constructor.
    + destruct (box_indent b x) as [b'|] eqn:I; cbn in E; [|discriminate]. apply Ok_inj in E. subst w'. cbn [wl_boxes w_boxes].
      inversion W; subst. constructor; [|assumption]. eapply box_indent_width; eauto.
  - destruct (ntruthy x); [|apply Ok_inj in E; subst; exact W]. destruct (wl_indent w x) as [w1|] eqn:I; cbn in E; [|discriminate].
    apply Ok_inj in E. subst w'. cbn [wl_boxes]. eapply IH; eauto.
Qed.
Lemma indented_wide ws (x : @num QcNum) ws' : indent_first ws x = Ok ws' -> (0 <= x)%Qc -> Forall wide_boxes ws -> Forall wide_boxes ws'.
Proof.
  destruct ws as [|w r]; cbn [indent_first]; intros E X W; [apply Ok_inj in E; subst; constructor|].
  apply bind_ok in E as (w' & I & E). apply Ok_inj in E. subst. inversion W; subst. constructor; [|assumption]. eapply wl_indent_width; eauto.
Qed.
Lemma words_wide g st cmd ws ex : glyphs_nonneg -> into_words g st = Ok (cmd, ws, ex) -> wls_in pos ws -> Forall wide_boxes ws.
Proof.
  intros H E P. apply into_words_fresh in E. unfold wls_in in P. rewrite Forall_forall in *. intros w I.
  specialize (P w I). specialize (E w I). apply wl_boxes_in in P. unfold fresh_wl in E. unfold wide_boxes. rewrite Forall_forall in *.
  intros b B. apply fresh_nonneg; auto.
Qed.
Lemma end_forms_wide w b : glyphs_nonneg -> wl_in pos w -> wl_ok w -> wide_boxes w -> In b (end_forms w) -> (0 <= box_advance b)%Qc.
Proof.
  intros H P OK W I. rewrite <- box_width_ok by (eapply end_form_ok; eauto). apply wl_boxes_in in P. unfold wide_boxes in W.
  rewrite Forall_forall in *. unfold end_forms in I. destruct (rev (wl_boxes w)) as [|b0 r] eqn:R; [destruct I|].
  assert (B : forall x, In x (b0 :: r) -> In x (wl_boxes w)) by (intros x; rewrite <- R; apply in_rev).
  apply in_app_or in I as [I|[<-|[]]].
  - apply in_map_iff in I as (b' & <- & I). apply in_rev in I. specialize (B b' (or_intror I)).
    eapply Qcle_trans; [apply W, B|]. apply hyphen_widens_ok; [apply glyphs_hyphens, H|].
    apply Qclt_le_weak. exact (box_state_in pos b' (P b' B)).
  - apply W, B. left. reflexivity.
Qed.
Lemma tails_pos w t : wl_in pos w -> wl_ok w -> wl_tail w = Some t -> (0 < ts_size t)%Qc.
Proof.
  induction w as [b|[bl tl st]|w IH c]; cbn [wl_in wl_ok wl_tail w_tail]; intros P OK E; [discriminate| |destruct P; auto].
  subst tl. destruct P as [_ P]. destruct OK as [_ (_ & E)]. cbn [w_state] in *. rewrite E. exact P.
Qed.
Lemma opt_ne fuel ws cols ae (lead : @num QcNum) av ragged tol P out : (0 < lead)%Qc -> (forall i, 0 <= snd (cols i))%Qc ->
  opt_shape fuel ws cols ae lead av ragged tol P = Ok out -> out <> [].
Proof.
  intros LP R E. destruct (roomy_cols cols lead LP R) as (RM & _). apply opt_shape_spec in E as (frags & boxes & IB & [(_ & d & -> & _)|(d & q & gs & _ & -> & Q & L)]); [| |exact RM].
  - intros X. apply app_eq_nil in X as [_ X]. discriminate.
  - intros X. apply app_eq_nil in X as [_ ->]. destruct L as (ls & LY & PC).
    apply into_boxes_len in IB. apply lay_rows in LY as (t & _ & RW); [|exact IB].
    destruct (per_column_spec ls q (proj1 Q)) as (gs & E1 & E2 & _). rewrite PC in E1. apply Ok_inj in E1. subst gs. cbn in E2. subst ls. inversion RW.
Qed.

(** ** Paragraphs *)
Lemma ff_breaks_well D p (lead : @num QcNum) : hyphens_nonneg -> (0 < lead)%Qc -> p_optimal p = None -> breaks_well pos (fun _ => True) D p lead.
Proof.
  intros H LP N g st cmd ws ex ws' cs ae _ G S W I WI R DC. unfold shape. rewrite N.
  destruct (ff_total ws' (cols_of cs) ae lead (p_orphans p) (is_justify (p_align p)) H WI LP R) as (n & T). exists n. intros fuel L.
  destruct (T fuel L) as (x & E). pose proof (ff_ne _ _ _ _ _ _ _ _ E) as NE. rewrite E. cbn. eexists. split; [reflexivity|]. destruct x; [congruence|discriminate].
Qed.
Lemma just_breaks_well p (lead tol : @num QcNum) P : all_split -> glyphs_nonneg -> (0 < lead)%Qc -> (0 <= p_indent p)%Qc ->
  p_optimal p = Some (tol, P) -> (0 < tol)%Qc -> p_align p = AJustify -> breaks_well pos (fun _ => True) (fun c => 0 < c_width c)%Qc p lead.
Proof.
  intros HY H LP IP N TP J g st cmd ws ex ws' cs ae _ G S W I WI R DC. unfold shape. rewrite N, J. cbn [is_justify negb].
  assert (PW : paragraph_words ws') by (eapply pw_indented; [eapply pw_parsed; exact W|exact I]).
  assert (X : exists n, forall fuel, n <= fuel -> exists out, opt_shape fuel ws' (cols_of cs) ae lead (p_orphans p) false tol P = Ok out).
  { assert (OK := pw_ok _ PW). rewrite Forall_forall in OK. unfold wls_in in WI. rewrite Forall_forall in WI.
    assert (WB : Forall wide_boxes ws').
    { eapply indented_wide; [exact I|exact IP|]. eapply words_wide; [exact H|exact W|]. exact (proj2 (into_words_in pos _ _ _ G S W)). }
    rewrite Forall_forall in WB.
    assert (NE : ws' = [] \/ ws' <> []) by (destruct ws'; [left; reflexivity|right; discriminate]). destruct NE as [-> |NE].
    { exists 0. intros fuel _. unfold opt_shape. change (into_boxes [] (negb false)) with (@Ok (list fragment * list (@kbox QcNum)) ([], [])). cbn [bind].
      rewrite (pos_neq lead LP). destruct (_ =? 0)%Z; eauto. }
    apply C43_justified_succeeds; auto.
    - intros i. split; [apply DC|apply R].
    - intros w t Iw Et C. pose proof (tails_pos w t (WI w Iw) (OK w Iw) Et) as X. rewrite C in X. discriminate X.
    - intros w b Iw Ib. eapply end_forms_wide; eauto. }
  destruct X as (n & T). exists n. intros fuel L. destruct (T fuel L) as (out & E). 
  pose proof (opt_ne _ _ (cols_of cs) _ _ _ _ _ _ _ LP (fun i => R i) E) as NE. rewrite E. cbn. eexists. split; [reflexivity|]. destruct out; [congruence|discriminate].
Qed.
(** Ragged text in one font and size whose pieces fit the columns *)
Definition pieces_fit (p : @para QcNum) (f0 : font) (z0 width : @num QcNum) (g : list passage) : Prop :=
  forall st cmd ws ex ws', st_font st = f0 -> st_size st = z0 ->
    into_words g st = Ok (cmd, ws, ex) -> indent_first ws (p_indent p) = Ok ws' ->
    forall w b, In w ws' -> In b (end_forms w) -> (box_advance b <= width)%Qc.
Lemma ragged_breaks_well p (lead tol : @num QcNum) P (f0 : font) (z0 width : @num QcNum) : all_split -> (0 < lead)%Qc -> (0 < z0)%Qc -> (0 < spacewidth f0)%Qc ->
  p_optimal p = Some (tol, P) -> (0 < tol)%Qc -> is_justify (p_align p) = false -> (0 <= width)%Qc ->
  breaks_well (fun f z => f = f0 /\ z = z0) (pieces_fit p f0 z0 width) (fun c => width <= c_width c)%Qc p lead.
Proof.
  intros HY LP ZP SP N TP J WN g st cmd ws ex ws' cs ae FIT G S W I WI R DC. unfold shape. rewrite N, J. cbn [negb].
  assert (PW : paragraph_words ws') by (eapply pw_indented; [eapply pw_parsed; exact W|exact I]).
  assert (X : exists n, forall fuel, n <= fuel -> exists out, opt_shape fuel ws' (cols_of cs) ae lead (p_orphans p) true tol P = Ok out).
  { assert (OK := pw_ok _ PW). rewrite Forall_forall in OK. unfold wls_in in WI. rewrite Forall_forall in WI.
    assert (NE : ws' = [] \/ ws' <> []) by (destruct ws'; [left; reflexivity|right; discriminate]). destruct NE as [-> |NE].
    { exists 0. intros fuel _. unfold opt_shape. change (into_boxes [] (negb true)) with (@Ok (list fragment * list (@kbox QcNum)) ([], [])). cbn [bind].
      rewrite (pos_neq lead LP). destruct (_ =? 0)%Z; eauto. }
    apply C43_ragged_succeeds; auto.
    - intros i. cbn [fst snd]. split; [eapply Qcle_trans; [exact WN|apply DC]|apply R].
    - intros w Iw. destruct (wl_state_in _ w (WI w Iw)) as (-> & ->). auto.
    - intros w t Iw Et C.
      assert (WP : wl_in pos w) by (apply (wl_mono (fun f z => f = f0 /\ z = z0)); [intros f z (_ & ->); exact ZP|auto]).
      pose proof (tails_pos w t WP (OK w Iw) Et) as X. rewrite C in X. discriminate X.
    - intros w b i Iw Ib. cbn [fst]. eapply Qcle_trans; [|apply DC]. destruct S as [S1 S2]. eapply FIT; eauto. }
  destruct X as (n & T). exists n. intros fuel L. destruct (T fuel L) as (out & E).
  pose proof (opt_ne _ _ (cols_of cs) _ _ _ _ _ _ _ LP (fun i => R i) E) as NE. rewrite E. cbn. eexists. split; [reflexivity|]. destruct out; [congruence|discriminate].
Qed.
End Total.
