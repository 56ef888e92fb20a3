(** * KernProofs: words are kerned *)
From Coq Require Import QArith Qcanon Lqa Sorted.
From Verif Require Import Base Gfmt FontSpec FontProofs Num Fonts State TextSpec StateProofs Words WordsSpec WordProofs Parse Render RenderSpec RenderProofs WordWidth KernSpec Properties_Fonts.
Open Scope nat_scope.

Section Proofs.
Context {ENV : Env QcNum}.
Lemma kern_at_spec k i x : StronglySorted lt (map fst k) -> In (i, x) k -> kern_at k i = x.
Proof.
  unfold kern_at. induction k as [|[j y] k IH]; intros HS HI; [contradiction|].
  cbn [find fst]. inversion HS as [|? ? HS' HF]; subst. destruct HI as [E|HI].
  - injection E as -> ->. rewrite Nat.eqb_refl. reflexivity.
  - assert (j < i). { rewrite Forall_forall in HF. apply HF. apply (in_map fst) in HI. exact HI. }
    replace (j =? i) with false by lia. apply IH; assumption.
Qed.
Lemma kern_at_none k i : (forall x, ~ In (i, x) k) -> kern_at k i = 0%Qc.
Proof.
  unfold kern_at. intros H. destruct (find _ k) as [[j y]|] eqn:F; [|reflexivity].
  apply find_some in F as [F1 F2]. cbn in F2. apply Nat.eqb_eq in F2. subst. exfalso. eapply H, F1.
Qed.
Lemma same_kerns (st : @state QcNum) : (font_eqb (st_font st) (st_font st) && Qc_eq_bool (st_size st) (st_size st))%bool = true.
Proof. rewrite font_eqb_refl. unfold Qc_eq_bool. destruct (Qc_eq_dec _ _); [reflexivity|congruence]. Qed.
Lemma pair_kern_same st p c : pair_kern (Some (p, st)) (c, st) = charkern (st_font st) p c.
Proof. unfold pair_kern. cbn [snd fst]. rewrite same_kerns. reflexivity. Qed.
Lemma font_kern_at f t prev i c : nth_error t i = Some c ->
  kern_at (font_kern f t prev) i = match preceding prev t i with Some p => charkern f p c | None => 0%Qc end.
Proof.
  intros HC. unfold font_kern, charkern. destruct (kerntab f) as [tab|]; [|destruct (preceding prev t i); reflexivity].
  destruct (C30_kern_positions QcNum tab t prev) as [K S].
  destruct (preceding prev t i) as [p|] eqn:P.
  - destruct (@ntruthy QcNum (tab p c)) eqn:T.
    + apply kern_at_spec; [exact S|]. apply K. exists p, c. auto.
    + rewrite kern_at_none; [symmetry; apply ntruthy_false, T|]. intros x I. apply K in I as (a & b & I1 & I2 & -> & I3).
      rewrite P in I1. rewrite HC in I2. injection I1 as <-. injection I2 as <-. congruence.
  - apply kern_at_none. intros x I. apply K in I as (a & b & I1 & _). congruence.
Qed.
Lemma adj_slug_new t st prev : adj_slug (slug_new t st prev) = kerned_text (option_map (fun p => (p, st)) prev) (styled_str t st).
Proof.
  unfold adj_slug, measured_slug, slug_new. cbn [sl_kern sl_txt sl_state].
  assert (G : forall u pre, t = pre ++ u ->
    with_kern (length pre) (font_kern (st_font st) t prev) (styled_str u st)
    = kerned_text (option_map (fun p => (p, st)) (preceding prev t (length pre))) (styled_str u st)).
  { induction u as [|c u IH]; intros pre E; [reflexivity|]. cbn [styled_str map with_kern kerned_text]. f_equal.
    - f_equal. rewrite (font_kern_at _ _ _ _ c) by (rewrite E, nth_error_app2, Nat.sub_diag by lia; reflexivity).
      destruct (preceding prev t (length pre)) as [p|]; [|reflexivity]. cbn [option_map]. rewrite pair_kern_same. reflexivity.
    - specialize (IH (pre ++ [c])). rewrite app_length in IH. cbn [length] in IH. rewrite Nat.add_1_r in IH.
      unfold styled_str in IH. rewrite IH by (rewrite <- app_assoc; exact E). f_equal.
      cbn [preceding]. rewrite E, nth_error_app2, Nat.sub_diag by lia. reflexivity. }
  exact (G t [] eq_refl).
Qed.

Lemma last_of_app d a b : last_of d (a ++ b) = last_of (last_of d a) b.
Proof. unfold last_of. rewrite rev_app_distr. destruct (rev b); reflexivity. Qed.
Lemma kerned_text_app p a b : kerned_text p (a ++ b) = kerned_text p a ++ kerned_text (last_of p a) b.
Proof.
  revert p. induction a as [|x a IH]; intros p; [reflexivity|]. cbn [app kerned_text]. rewrite IH. f_equal. f_equal. f_equal.
  change (x :: a) with ([x] ++ a). rewrite last_of_app. reflexivity.
Qed.
Lemma styled_str_app a b (st : @state QcNum) : styled_str (a ++ b) st = styled_str a st ++ styled_str b st.
Proof. apply map_app. Qed.
Lemma last_of_str d t (st : @state QcNum) : t <> [] -> last_of d (styled_str t st) = Some (str_last t, st).
Proof.
  intros N. unfold last_of, styled_str, str_last. rewrite <- map_rev. rewrite (app_removelast_last 0%N N) at 1. rewrite rev_app_distr. reflexivity.
Qed.
Notation at_ st := (option_map (fun p => (p, st))).
Lemma slugs_new_adj parts st : forall prev boxes, slugs_new parts st prev = Ok boxes ->
  flat_map adj_box boxes = kerned_text (at_ st prev) (styled_str (concat parts) st).
Proof.
  induction parts as [|p parts IH]; intros prev boxes E; cbn [slugs_new] in E.
  - apply Ok_inj in E. subst. reflexivity.
  - destruct p as [|c0 p0] eqn:EP; [discriminate|]. rewrite <- EP in *. apply bind_ok in E as (l & E1 & E). apply Ok_inj in E. subst boxes.
    cbn [flat_map concat adj_box]. rewrite adj_slug_new, (IH _ _ E1), styled_str_app, kerned_text_app.
    rewrite last_of_str by congruence. reflexivity.
Qed.
Lemma word_new_adj s st prev w : all_split -> word_new s st prev = Ok w -> adj_word w = kerned_text (at_ st prev) (styled_str s st) /\ w_state w = st.
Proof.
  intros HY E. unfold word_new in E. destruct (tspace_parse s st prev) as [s' t] eqn:T.
  apply bind_ok in E as (parts & E1 & E). apply bind_ok in E as (boxes & E2 & E). apply Ok_inj in E. subst w.
  destruct (into_syllables_spec (hyphenator (st_hyphens st)) s' (HY _)) as (parts' & E1' & EC & EN).
  rewrite E1 in E1'. apply Ok_inj in E1'. subst parts'.
  split; [|reflexivity]. unfold adj_word. cbn [w_boxes w_tail w_state]. rewrite (slugs_new_adj _ _ _ _ E2), EC.
  pose proof (tspace_parse_spec _ _ _ _ _ T) as ES. rewrite ES, styled_str_app, kerned_text_app. f_equal.
  unfold tspace_parse in T. destruct s as [|c s]; [injection T as <- <-; reflexivity|].
  destruct (str_last (c :: s) =? 32)%N; injection T as <- <-; [|reflexivity].
  cbn [adj_tail styled_str map kerned_text]. do 2 f_equal. unfold tspace_new. cbn [ts_kern].
  match goal with |- context [last_of _ (styled_str ?x st)] => generalize x as u end. clear. intros u. destruct u as [|d u].
  - change (last_of (at_ st prev) (styled_str [] st)) with (at_ st prev). destruct prev as [p|]; [|reflexivity].
    cbn [option_map]. rewrite pair_kern_same. reflexivity.
  - rewrite last_of_str by discriminate. rewrite pair_kern_same. reflexivity.
Qed.

Lemma neqb_bool a b : @neqb QcNum a b = Qc_eq_bool a b.
Proof.
  change (Qceqb a b = Qc_eq_bool a b). unfold Qc_eq_bool. destruct (Qc_eq_dec a b) as [->|N]; [apply Qceqb_eq; reflexivity|].
  destruct (Qceqb a b) eqn:E; [|reflexivity]. apply Qceqb_eq in E. congruence.
Qed.
Definition link (q : option schar) (s : @state QcNum) : option char :=
  match q with Some (c, sq) => if kerns_with sq s then Some c else None | None => None end.
Lemma link_kern q s : pair_kern q (32%N, s) = match link q s with Some p => charkern (st_font s) p 32%N | None => 0%Qc end.
Proof.
  destruct q as [[c sq]|]; [|reflexivity]. unfold pair_kern, link, kerns_with. cbn [snd fst]. rewrite neqb_bool.
  destruct (_ && _)%bool; reflexivity.
Qed.
Lemma kerned_link q t s : kerned_text (at_ s (link q s)) (styled_str t s) = kerned_text q (styled_str t s).
Proof.
  destruct t as [|c t]; [reflexivity|]. cbn [styled_str map kerned_text]. do 2 f_equal.
  destruct q as [[p sq]|]; [|reflexivity]. unfold link, kerns_with. rewrite neqb_bool.
  unfold pair_kern at 2. cbn [snd fst]. destruct (_ && _)%bool; [|reflexivity]. cbn [option_map]. apply pair_kern_same.
Qed.
Lemma segments_adj parts : forall seg, Forall (fun p : passage => snd p <> []) (removelast parts) -> sl_txt seg <> [] ->
  let q := (slug_last seg, sl_state seg) in
  let '(l, p, s') := segments parts seg (Some (slug_last seg)) (sl_state seg) [] in
  flat_map (fun p => adj_slug (fst p)) l = adj_slug seg ++ kerned_text (Some q) (styled parts (sl_state seg))
  /\ s' = end_state parts (sl_state seg)
  /\ p = link (last_of (Some q) (styled parts (sl_state seg))) s'.
Proof.
  induction parts as [|[cmd t] parts IH]; intros seg HF HN; cbn [segments].
  - cbn [flat_map fst styled kerned_text app]. rewrite !app_nil_r. split; [reflexivity|]. split; [reflexivity|].
    unfold link, last_of. cbn [rev]. unfold kerns_with. rewrite font_eqb_refl. cbn [andb].
    rewrite neqb_bool. unfold Qc_eq_bool. destruct (Qc_eq_dec _ _); [reflexivity|congruence].
  - set (st := sl_state seg) in *. set (st' := apply cmd st).
    destruct t as [|c1 t1] eqn:ET.
    + destruct parts as [|? ?]; [|cbn [removelast] in HF; inversion HF as [|? ? X]; cbn in X; congruence].
      cbn [segments flat_map fst styled kerned_text styled_str map app]. rewrite !app_nil_r. split; [reflexivity|]. split; [reflexivity|].
      unfold link, last_of. cbn [rev]. reflexivity.
    + rewrite <- ET in *. assert (NT : t <> []) by congruence.
      assert (X : forall A (a b : A), match t with [] => a | _ => b end = b) by (rewrite ET; reflexivity). clear ET.
      set (sg := slug_new t st' (if kerns_with st st' then Some (slug_last seg) else None)).
      assert (HF' : Forall (fun p : passage => snd p <> []) (removelast parts)).
      { destruct parts; [constructor|]. cbn [removelast] in HF. inversion HF; subst. assumption. }
      specialize (IH sg HF' NT). cbn zeta in IH. change (slug_last sg) with (str_last t) in IH. change (sl_state sg) with st' in IH.
      destruct t as [|c0 t0] eqn:ET; [congruence|]. rewrite <- ET in *. fold sg.
      destruct (segments parts sg (Some (str_last t)) st' []) as [[l p] s']. destruct IH as (I1 & I2 & I3).
      cbn zeta. cbn [flat_map fst]. split; [|split].
      * rewrite I1. cbn [styled]. fold st'. rewrite kerned_text_app, last_of_str by congruence. f_equal. f_equal.
        unfold sg. rewrite <- ET, adj_slug_new. exact (kerned_link (Some (slug_last seg, st)) t st').
      * exact I2.
      * rewrite I3. cbn [styled]. fold st'. rewrite last_of_app, last_of_str by congruence. reflexivity.
Qed.
Lemma complete_word_adj it head st w next : all_split -> Forall (fun p : passage => snd p <> []) it -> head <> [] ->
  complete_word it head st = Ok (w, next) -> adj_word w = kerned_text None (measured_word w).
Proof.
  intros HY HF HN E. destruct (complete_word_spec it head st HY HN) as (w1 & n1 & E1 & M1).
  rewrite E in E1. apply Ok_inj in E1. injection E1 as <- <-.
  unfold complete_word in E. destruct (take_parts it) as [parts nx] eqn:TP. pose proof (take_parts_spec _ _ _ TP) as TS.
  destruct parts as [|pt0 parts0] eqn:EP.
  { apply bind_ok in E as (x & E1 & E). apply Ok_inj in E. injection E as <- <-. destruct (word_new_adj _ _ _ _ HY E1) as [A _].
    destruct (word_new_spec head st None HY) as (x' & E1' & M & _). rewrite E1 in E1'. apply Ok_inj in E1'. subst x'. rewrite A, M. reflexivity. }
  rewrite <- EP in *. set (parts' := match nx with Some _ => cut_parts parts | None => parts end) in *.
  set (seg := slug_new head st None) in *.
  assert (HF' : Forall (fun p : passage => snd p <> []) (removelast parts')).
  { unfold parts'. destruct nx as [[r it']|].
    - destruct TS as (a & c & t & -> & -> & _). rewrite cut_parts_app, removelast_last. apply Forall_app in HF. apply HF.
    - destruct TS as (-> & _). clear -HF. induction HF; cbn [removelast]; [constructor|]. destruct l; constructor; auto. }
  pose proof (segments_adj parts' seg HF' HN) as SA. cbn zeta in SA. change (sl_state seg) with st in SA.
  destruct (segments parts' seg (Some (slug_last seg)) st []) as [[segs prev] st'] eqn:SE. destruct SA as (A1 & A2 & A3).
  apply Ok_inj in E. injection E as <- <-.
  set (space := match nx with Some _ => ends_with_space (snd (last parts (NoOp, []))) | None => false end) in *.
  assert (M : measured_word (mkWord [BMixed segs st'] (if space then Some (tspace_new st' prev) else None) st')
     = styled_str head st ++ styled parts' st ++ (if space then [(32%N, st')] else [])).
  { assert (X : flat_map measured_box [BMixed segs st'] = styled_str head st ++ styled parts' st).
    { cbn [flat_map measured_box]. rewrite app_nil_r. apply (f_equal (map fst)) in A1.
      assert (W : forall k l i, map fst (with_kern i k l) = l) by (intros k l; induction l as [|y l IHl]; intros i; cbn; [reflexivity|rewrite IHl; reflexivity]).
      assert (K : forall l p, map fst (kerned_text p l) = l) by (induction l as [|y l IHl]; intros p; cbn; [reflexivity|rewrite IHl; reflexivity]).
      rewrite map_app, K in A1. unfold adj_slug in A1. rewrite W in A1. change (measured_slug seg) with (styled_str head st) in A1. rewrite <- A1.
      unfold measured_segs. clear -W. induction segs as [|y l IHl]; cbn; [reflexivity|]. rewrite map_app, IHl. f_equal. unfold adj_slug. rewrite W. reflexivity. }
    unfold measured_word. cbn [w_boxes w_tail w_state]. rewrite X, <- app_assoc. do 2 f_equal. destruct space; reflexivity. }
  rewrite M. unfold adj_word. cbn [w_boxes w_tail w_state flat_map adj_box]. rewrite app_nil_r, A1, !kerned_text_app.
  unfold seg at 1. rewrite adj_slug_new. rewrite (last_of_str None head st HN). rewrite <- app_assoc. f_equal. f_equal.
  change (slug_last seg) with (str_last head) in *.
  destruct space; [|reflexivity]. cbn [adj_tail kerned_text]. do 2 f_equal. unfold tspace_new. cbn [ts_kern]. rewrite link_kern, <- A3. reflexivity.
Qed.
End Proofs.
