(** * FloatLines: first-fit lines measured in doubles.  Every box has a true width (a real
    number); the width computed for it is off by at most [e]. *)
From Coq Require Import ZArith Bool Reals.
From Flocq Require Import Core IEEE754.BinarySingleNaN.
From Verif Require Import Base Num Float64 FloatProofs NumInstances RoundErr Fonts State TextSpec StateProofs
  Words WordsSpec WordProofs WordOps LineSpec Firstfit FirstfitProofs FirstfitWidth.
From Coq Require Import Lra Lia.
Open Scope R_scope.
Section Lines.
Context (pow : b64 -> nat -> b64) {ENV : Env (Float64 pow)}.
#[local] Hint Extern 0 Num => exact (Float64 pow) : typeclass_instances.
Context (k : Z) (e : R) (adv wt : box -> R) (G : box -> Prop) (tadv twt : tspace * state -> R) (GT : tspace * state -> Prop).
Definition unkern_space (t : tspace * state) : tspace * state := (mkSpace (ts_width (fst t)) n0 (ts_size (fst t)), snd t).
(** the final space of a word, with the state it is set in *)
Fixpoint wl_end (w : wordlike) : option (tspace * state) :=
  match w with WBox _ => None | WWord w => option_map (fun t => (t, w_state w)) (w_tail w) | WCmd w _ => wl_end w end.
Hypothesis SK : sane k.
Hypothesis E0 : 0 <= e.
Hypothesis GB : forall b, G b -> close (box_width b) (adv b) e /\ Rabs (adv b) <= wt b.
Hypothesis GH : forall b, G b -> close (box_width (box_with_hyphen b)) (adv (box_with_hyphen b)) e /\ Rabs (adv (box_with_hyphen b)) <= wt b.
Hypothesis GN : forall b, G b -> G (box_without_init_kern b) /\ wt (box_without_init_kern b) <= wt b.
Hypothesis GTB : forall t, GT t -> close (tspace_width (fst t)) (tadv t) e /\ Rabs (tadv t) <= twt t.
Hypothesis GTN : forall t, GT t -> GT (unkern_space t) /\ twt (unkern_space t) <= twt t.

Definition d : R := e + ulp2 k.
Definition tail_adv (t : option (tspace * state)) : R := match t with Some t => tadv t | None => 0 end.
Definition tail_wt (t : option (tspace * state)) : R := match t with Some t => twt t | None => 0 end.
Definition wl_adv (w : wordlike) : R := Rsum (map adv (wl_boxes w)) + tail_adv (wl_end w).
Definition wl_padv (w : wordlike) : R := Rsum (map adv (wl_boxes w)).
Definition wl_wt (w : wordlike) : R := Rsum (map wt (wl_boxes w)) + tail_wt (wl_end w).
Definition wl_good (w : wordlike) : Prop := Forall G (wl_boxes w) /\ match wl_end w with Some t => GT t | None => True end.
Definition cost (w : wordlike) : R := INR (List.length (wl_boxes w) + 2) * d.
Definition line_adv (l : list wordlike) : R := Rsum (map wl_adv l).
Definition line_cost (l : list wordlike) : R := Rsum (map cost l).
Definition room (l : list wordlike) : R := Rsum (map (fun w => wl_wt w + cost w) l).

Lemma d_pos : 0 < d. Proof. unfold d. assert (U := ulp2_pos k). lra. Qed.
Lemma INR_d n : 0 <= INR n * d. Proof. apply Rmult_le_pos; [apply pos_INR|apply Rlt_le, d_pos]. Qed.
Lemma wt_pos b : G b -> 0 <= wt b. Proof. intros H. destruct (GB b H) as (_ & A). eapply Rle_trans; [apply Rabs_pos|exact A]. Qed.
Lemma twt_pos t : GT t -> 0 <= twt t. Proof. intros H. destruct (GTB t H) as (_ & A). eapply Rle_trans; [apply Rabs_pos|exact A]. Qed.
Lemma wts_pos l : Forall G l -> 0 <= Rsum (map wt l).
Proof. induction 1 as [|b l H _ IH]; cbn; [lra|]. apply wt_pos in H. lra. Qed.
Lemma advs_wt l : Forall G l -> Rsum (map Rabs (map adv l)) <= Rsum (map wt l).
Proof. induction 1 as [|b l H _ IH]; cbn; [lra|]. destruct (GB b H) as (_ & A). lra. Qed.
Lemma advs_abs l : Forall G l -> Rabs (Rsum (map adv l)) <= Rsum (map wt l).
Proof. intros H. eapply Rle_trans; [apply Rsum_abs|apply advs_wt, H]. Qed.
Lemma tail_pos w : wl_good w -> 0 <= tail_wt (wl_end w) /\ Rabs (tail_adv (wl_end w)) <= tail_wt (wl_end w).
Proof. intros (_ & H). destruct (wl_end w); cbn in *; [split; [apply twt_pos, H|apply GTB, H]|rewrite Rabs_R0; lra]. Qed.
Lemma wl_wt_pos w : wl_good w -> 0 <= wl_wt w.
Proof. intros H. destruct (tail_pos w H). assert (P := wts_pos _ (proj1 H)). unfold wl_wt. lra. Qed.
Lemma wl_adv_abs w : wl_good w -> Rabs (wl_adv w) <= wl_wt w.
Proof. intros H. destruct (tail_pos w H). assert (P := advs_abs _ (proj1 H)). unfold wl_wt, wl_adv. eapply Rle_trans; [apply Rabs_triang|lra]. Qed.
Lemma wl_padv_abs w : wl_good w -> Rabs (wl_padv w) <= wl_wt w.
Proof. intros H. destruct (tail_pos w H). assert (P := advs_abs _ (proj1 H)). unfold wl_wt, wl_padv. lra. Qed.
Lemma cost_pos w : 0 < cost w.
Proof. unfold cost. apply Rmult_lt_0_compat; [|apply d_pos]. apply lt_0_INR. lia. Qed.
Lemma cost_eq w : cost w = INR (List.length (wl_boxes w)) * d + 2 * d.
Proof. unfold cost. rewrite plus_INR. change (INR 2) with (1 + 1). ring. Qed.
Lemma room_pos ws : Forall wl_good ws -> 0 <= room ws.
Proof. induction 1 as [|w l H _ IH]; cbn; [lra|]. fold (room l). assert (A := wl_wt_pos w H). assert (B := cost_pos w). lra. Qed.
Lemma line_cost_pos ws : 0 <= line_cost ws.
Proof. induction ws as [|w l IH]; cbn; [lra|]. fold (line_cost l). assert (B := cost_pos w). lra. Qed.
Lemma line_adv_app a b : line_adv (a ++ b) = line_adv a + line_adv b.
Proof. unfold line_adv. rewrite map_app. apply Rsum_app. Qed.
Lemma line_cost_app a b : line_cost (a ++ b) = line_cost a + line_cost b.
Proof. unfold line_cost. rewrite map_app. apply Rsum_app. Qed.
Lemma room_app a b : room (a ++ b) = room a + room b.
Proof. unfold room. rewrite map_app. apply Rsum_app. Qed.
Lemma line_adv_abs ws : Forall wl_good ws -> Rabs (line_adv ws) <= room ws - line_cost ws.
Proof.
  induction 1 as [|w l H _ IH]; cbn.
  - rewrite Rabs_R0. lra.
  - fold (line_adv l) (room l) (line_cost l). assert (A := wl_adv_abs w H). eapply Rle_trans; [apply Rabs_triang|]. lra.
Qed.
Lemma one_adv w : line_adv [w] = wl_adv w. Proof. unfold line_adv. cbn. ring. Qed.
Lemma one_cost w : line_cost [w] = cost w. Proof. unfold line_cost. cbn. ring. Qed.

(** ** the widths of words *)
Lemma boxes_near l : Forall G l -> Rsum (map wt l) + INR (List.length l) * d <= cap k ->
  close (nsum (map box_width l)) (Rsum (map adv l)) (INR (List.length l) * d).
Proof.
  intros H C. rewrite <- (map_length box_width l) at 1. unfold d. apply nsum_near; auto.
  - induction H as [|b l B _ IH]; cbn; constructor; [apply GB, B|]. apply IH. cbn [map Rsum List.length] in C. rewrite S_INR in C.
    assert (P := wt_pos b B). assert (D := d_pos). lra.
  - rewrite map_length. fold d. assert (A := advs_wt l H). lra.
Qed.
Lemma zero_close : close (@n0 (Float64 pow)) 0 0.
Proof.
  destruct (nZ64 pow 0 ltac:(lia)) as (F0 & V0). split; [exact F0|].
  change (@n0 (Float64 pow)) with (@nZ (Float64 pow) 0). rewrite V0. replace (0 - 0) with 0 by ring. rewrite Rabs_R0. lra.
Qed.
Lemma no_value (x : @num (Float64 pow)) : fin x -> ntruthy x = false -> val x = 0.
Proof.
  intros F TX. destruct (nZ64 pow 0 ltac:(lia)) as (F0 & V0). unfold ntruthy in TX. apply negb_false_iff in TX.
  change (neqb x n0) with (Beqb x (@nZ (Float64 pow) 0)) in TX. apply (eq_val x _ F F0) in TX. rewrite TX, V0. reflexivity.
Qed.
Lemma wl_widths w : wl_good w -> wl_wt w + cost w <= cap k ->
  close (wl_width w) (wl_adv w) (cost w - d) /\ close (wl_pruned_width w) (wl_padv w) (cost w - 2 * d).
Proof.
  induction w as [b|w|w IH c]; intros H C.
  - destruct H as (H & _). apply Forall_inv in H. destruct (GB b H) as (A & _). cbn [wl_width wl_pruned_width].
    assert (X : close (box_width b) (Rsum (map adv [b])) (1 * d)).
    { cbn. rewrite Rplus_0_r. eapply close_weak; [|exact A]. unfold d. assert (U := ulp2_pos k). lra. }
    rewrite cost_eq. unfold wl_adv, wl_padv. cbn [wl_boxes wl_end tail_adv List.length]. rewrite Rplus_0_r. change (INR 1) with 1.
    split; (eapply close_weak; [|exact X]); assert (D := d_pos); lra.
  - assert (D := d_pos). assert (P := tail_pos _ H). rewrite cost_eq in *. destruct H as (H & T). unfold wl_wt in C.
    cbn [wl_boxes wl_end] in *.
    assert (B : close (word_pruned_width w) (Rsum (map adv (w_boxes w))) (INR (List.length (w_boxes w)) * d)) by (apply boxes_near; auto; lra).
    cbn [wl_width wl_pruned_width]. split; [|unfold wl_padv; cbn [wl_boxes]; eapply close_weak; [|exact B]; lra].
    unfold word_width, wl_adv. cbn [wl_boxes wl_end].
    assert (AB := advs_abs _ H). 
    set (tl := option_map (fun t => (t, w_state w)) (w_tail w)) in *.
    assert (X : close (match w_tail w with Some t => tspace_width t | None => n0 end) (tail_adv tl) e).
    { subst tl. destruct (w_tail w) as [t|]; cbn [option_map tail_adv] in *; [apply (GTB _ T)|]. eapply close_weak; [exact E0|apply zero_close]. }
    eapply close_weak; [|eapply (close_add k); [exact SK|exact B|exact X|]].
    + unfold d. lra.
    + assert (TR := Rabs_triang (Rsum (map adv (w_boxes w))) (tail_adv tl)). unfold d in *. assert (U := ulp2_pos k). lra.
  - exact (IH H C).
Qed.

Lemma pruned_boxes w : wl_boxes (wl_pruned w) = wl_boxes w.
Proof. induction w as [b|w|w IH c]; cbn; auto. unfold word_pruned. destruct (w_tail w); reflexivity. Qed.
Lemma pruned_tail w : wl_end (wl_pruned w) = None.
Proof. induction w as [b|w|w IH c]; cbn; auto. unfold word_pruned. destruct (w_tail w) eqn:T; cbn; rewrite ?T; auto. Qed.
Lemma pruned_adv w : wl_adv (wl_pruned w) = wl_padv w.
Proof. unfold wl_adv, wl_padv. rewrite pruned_boxes, pruned_tail. cbn. ring. Qed.
Lemma pruned_cost w : cost (wl_pruned w) = cost w.
Proof. unfold cost. rewrite pruned_boxes. reflexivity. Qed.
Lemma prune_snoc (a : list wordlike) w : prune_last (a ++ [w]) = a ++ [wl_pruned w].
Proof. unfold prune_last. rewrite rev_app_distr. cbn. rewrite rev_involutive. reflexivity. Qed.
Lemma not_less (x y : b64) : fin x -> fin y -> @nltb (Float64 pow) x y = false -> val y <= val x.
Proof.
  intros X Y L. destruct (Rle_or_lt (val y) (val x)) as [|C]; auto. exfalso.
  change (@nltb (Float64 pow) x y) with (Bltb x y) in L. rewrite (proj2 (lt_val x y X Y) C) in L. discriminate.
Qed.
(** ** the words that fit *)
Lemma fit_words_near ws : forall (sp : @num (Float64 pow)) a er c0 c sp' stop, Forall wl_good ws ->
  close sp a er -> 0 <= er -> Rabs a + er + room ws <= cap k ->
  fit_words ws sp c0 = (c, sp', stop) ->
  exists taken, c = c0 ++ taken /\ close sp' (a - line_adv taken) (er + line_cost taken)
    /\ (taken <> [] -> line_adv (prune_last taken) <= a + er + line_cost taken)
    /\ (forall w r, stop = Some (w, r) -> ws = taken ++ w :: r /\ nltb sp' (wl_pruned_width w) = true)
    /\ (stop = None -> ws = taken).
Proof.
  induction ws as [|w r IH]; intros sp a er c0 c sp' stop H S P C; cbn [fit_words].
  - injection 1 as <- <- <-. exists []. rewrite app_nil_r. split; [auto|]. unfold line_adv, line_cost. cbn.
    rewrite Rminus_0_r, Rplus_0_r. split; [exact S|]. split; [congruence|]. split; [discriminate|auto].
  - inversion H as [|? ? Hw Hr]; subst. cbn [room map Rsum] in C. unfold room in C. cbn [map Rsum] in C. fold (room r) in C.
    assert (RP := room_pos r Hr). assert (AP := Rabs_pos a). assert (D := d_pos).
    destruct (wl_widths w Hw ltac:(lra)) as (WW & WP).
    destruct (nltb _ _) eqn:L.
    + injection 1 as <- <- <-. exists []. rewrite app_nil_r. split; [auto|]. unfold line_adv, line_cost. cbn [map Rsum].
      rewrite Rminus_0_r, Rplus_0_r. split; [exact S|]. split; [congruence|]. split; [|discriminate]. intros w' r' [= <- <-]. auto.
    + intros E. assert (AW := wl_adv_abs w Hw). assert (WTP := wl_wt_pos w Hw).
      assert (N : close (nsub sp (wl_width w)) (a - wl_adv w) (er + cost w)).
      { change (nsub sp (wl_width w)) with (bsub sp (wl_width w)).
        eapply close_weak; [|eapply (close_sub k); [exact SK|exact S|exact WW|]].
        - unfold d. assert (U := ulp2_pos k). lra.
        - assert (T := Rabs_triang a (- wl_adv w)). rewrite Rabs_Ropp in T. unfold Rminus. lra. }
      assert (CP := cost_pos w).
      apply (IH _ (a - wl_adv w) (er + cost w)) in E as (t & -> & I0 & I1 & I2 & I3); auto; [|lra|].
      2:{ assert (T := Rabs_triang a (- wl_adv w)). rewrite Rabs_Ropp in T. unfold Rminus. lra. }
      exists (w :: t). rewrite <- app_assoc. split; [reflexivity|].
      change (line_adv (w :: t)) with (wl_adv w + line_adv t). change (line_cost (w :: t)) with (cost w + line_cost t).
      split; [replace (a - (wl_adv w + line_adv t)) with (a - wl_adv w - line_adv t) by ring; replace (er + (cost w + line_cost t)) with (er + cost w + line_cost t) by ring; exact I0|].
      split.
      * intros _. destruct t as [|t0 t].
        -- unfold prune_last. cbn [rev app]. rewrite one_adv. change (line_cost []) with 0.
           rewrite pruned_adv. assert (LE := not_less _ _ (proj1 S) (proj1 WP) L).
           destruct S as (S1 & S2). destruct WP as (W1 & W2). apply abs_out in S2. apply abs_out in W2.
           lra.
        -- specialize (I1 ltac:(discriminate)). rewrite (app_removelast_last w (l := t0 :: t)) in I1 |- * by discriminate.
           set (v := removelast (t0 :: t)) in *. rewrite app_comm_cons, prune_snoc. rewrite prune_snoc in I1.
           cbn [app]. change (line_adv (w :: v ++ [wl_pruned (last (t0 :: t) w)])) with (wl_adv w + line_adv (v ++ [wl_pruned (last (t0 :: t) w)])). lra.
      * split; [|intros X; rewrite I3 by exact X; reflexivity].
        intros w' r' X. destruct (I2 w' r' X) as [I4 I5]. split; [rewrite I4; reflexivity|exact I5].
Qed.
(** ** hyphenation *)
Lemma hyph_loop_near rest : forall b (sp : @num (Float64 pow)) a er fit0 fit st nb r, G b -> Forall G rest ->
  close sp a er -> 0 <= er -> Rabs a + er + (wt b + Rsum (map wt rest)) + INR (S (List.length rest)) * d <= cap k ->
  nltb sp (box_width (box_with_hyphen b)) = false ->
  hyph_loop b rest sp fit0 = Ok (fit, st, nb, r) ->
  exists pre z, b :: rest = pre ++ z :: nb :: r /\ fit = fit0 ++ pre ++ [box_with_hyphen z]
    /\ Rsum (map adv (pre ++ [box_with_hyphen z])) <= a + er + INR (List.length pre + 1) * d.
Proof.
  induction rest as [|x rest IH]; intros b sp a er fit0 fit st nb r B R S P C L E; cbn [hyph_loop] in E; [discriminate|].
  assert (D := d_pos). assert (BP := wt_pos b B). inversion R as [|? ? X R']; subst. assert (XP := wt_pos x X). assert (RP := wts_pos rest R').
  destruct (GB b B) as (B1 & B2). destruct (GH b B) as (H1 & H2). assert (U := ulp2_pos k). assert (ED : e <= d) by (unfold d; lra).
  assert (IP := INR_d (List.length rest)). assert (AP := Rabs_pos a).
  cbn [map Rsum List.length] in C. rewrite !S_INR in C.
  assert (HB : adv (box_with_hyphen b) <= a + er + d).
  { assert (LE := not_less _ _ (proj1 S) (proj1 H1) L). destruct S as (_ & S2). destruct H1 as (_ & H3).
    apply abs_out in S2. apply abs_out in H3. lra. }
  destruct (nltb (nsub sp (box_width b)) _) eqn:L2.
  - apply Ok_inj in E. injection E as <- <- <- <-. exists [], b. split; [reflexivity|]. split; [reflexivity|].
    cbn [app map Rsum List.length Nat.add]. change (INR 1) with 1. lra.
  - assert (N : close (nsub sp (box_width b)) (a - adv b) (er + d)).
    { change (nsub sp (box_width b)) with (bsub sp (box_width b)).
      eapply close_weak; [|eapply (close_sub k); [exact SK|exact S|exact B1|]].
      - unfold d. lra.
      - assert (T := Rabs_triang a (- adv b)). rewrite Rabs_Ropp in T. unfold Rminus. lra. }
    apply (IH _ _ (a - adv b) (er + d)) in E as (pre & z & E1 & E2 & E3); auto; [|lra|].
    2:{ rewrite S_INR. assert (T := Rabs_triang a (- adv b)). rewrite Rabs_Ropp in T. unfold Rminus. lra. }
    exists (b :: pre), z. split; [cbn; rewrite <- E1; reflexivity|]. split; [rewrite E2, <- app_assoc; reflexivity|].
    cbn [app map Rsum List.length Nat.add]. rewrite S_INR. lra.
Qed.
(** what is left of a word *)
Definition lighter (b w : wordlike) : Prop := wl_good b /\ wl_wt b <= wl_wt w /\ cost b <= cost w.
Lemma lighter_refl w : wl_good w -> lighter w w.
Proof. intros H. split; [exact H|]. lra. Qed.
Lemma fewer_cost b w : (List.length (wl_boxes b) <= List.length (wl_boxes w))%nat -> cost b <= cost w.
Proof. intros H. unfold cost. apply Rmult_le_compat_r; [apply Rlt_le, d_pos|]. apply le_INR. lia. Qed.
Lemma unkern_lighter w : wl_good (WWord w) -> lighter (WWord (word_without_init_kern w)) (WWord w).
Proof.
  intros H. unfold word_without_init_kern. destruct (w_boxes w) as [|b r] eqn:B.
  - destruct (w_tail w) as [t|] eqn:T; [|apply lighter_refl, H]. destruct (ntruthy _); [|apply lighter_refl, H].
    destruct H as (_ & H). cbn [wl_end] in H. rewrite T in H. cbn [option_map] in H. destruct (GTN _ H) as (A1 & A2).
    split; [split; [constructor|exact A1]|]. split; [|apply fewer_cost; cbn; rewrite B; auto].
    unfold wl_wt. cbn [wl_boxes wl_end w_boxes w_tail w_state]. rewrite B, T. cbn [option_map map Rsum tail_wt w_state]. unfold unkern_space in A2. cbn [fst snd] in A2. lra.
  - destruct (box_has_init_kern b); [|apply lighter_refl, H]. destruct H as (H & HT). cbn [wl_boxes wl_end] in *. rewrite B in H.
    inversion H as [|? ? Hb Hr]; subst. destruct (GN b Hb) as (A1 & A2).
    split; [split; [constructor; auto|exact HT]|]. split; [|apply fewer_cost; cbn; rewrite B; cbn; lia].
    unfold wl_wt. cbn [wl_boxes wl_end w_boxes w_tail w_state]. rewrite B. cbn [map Rsum]. lra.
Qed.
Lemma suffix_lighter w pre z nb r : wl_good (WWord w) -> w_boxes w = pre ++ z :: nb :: r ->
  lighter (WWord (mkWord (box_without_init_kern nb :: r) (w_tail w) (w_state w))) (WWord w).
Proof.
  intros (H & HT) B. cbn [wl_boxes wl_end] in *. rewrite B in H. apply Forall_app in H as (HP & H).
  inversion H as [|? ? Hz H']; subst. inversion H' as [|? ? Hn Hr]; subst. destruct (GN nb Hn) as (A1 & A2).
  split; [split; [constructor; auto|exact HT]|]. split.
  - unfold wl_wt. cbn [wl_boxes wl_end w_boxes w_tail w_state]. rewrite B, map_app, Rsum_app. cbn [map Rsum].
    assert (P1 := wts_pos pre HP). assert (P2 := wt_pos z Hz). lra.
  - apply fewer_cost. cbn. rewrite B, app_length. cbn. lia.
Qed.
Lemma with_cmd_lighter b w c c' : lighter b w -> lighter (with_cmd b c) (WCmd w c').
Proof. destruct c; intros H; exact H. Qed.
Lemma wl_hyphenate_near w : forall (sp : @num (Float64 pow)) a er x y, wl_good w -> close sp a er -> 0 <= er ->
  Rabs a + er + (wl_wt w + cost w) <= cap k -> wl_hyphenate w sp = Ok (x, y) ->
  lighter y w /\ (forall l, x = Some l -> wl_adv l <= a + er + cost l /\ wl_end l = None).
Proof.
  induction w as [b|w|w IH c]; intros sp a er x y H S P C E; cbn [wl_hyphenate] in E.
  - apply Ok_inj in E. injection E as <- <-. split; [apply lighter_refl, H|discriminate].
  - apply rmap_inv in E as ([x' y'] & E & E2). cbn in E2. injection E2 as -> ->. unfold word_hyphenate in E.
    destruct (w_boxes w) as [|b rest] eqn:B.
    { apply Ok_inj in E. injection E as <- <-. split; [apply unkern_lighter, H|discriminate]. }
    destruct (nltb _ _) eqn:L.
    { apply Ok_inj in E. injection E as <- <-. split; [apply unkern_lighter, H|discriminate]. }
    apply bind_ok in E as ([[[fit st] nb] r] & HL & E). apply Ok_inj in E. injection E as <- <-.
    assert (TP := tail_pos _ H). assert (HG := proj1 H). cbn [wl_boxes] in HG. rewrite B in HG. inversion HG as [|? ? G1 G2]; subst.
    assert (D := d_pos).
    eapply hyph_loop_near in HL as (pre & z & E1 & E2 & E3); eauto.
    2:{ rewrite cost_eq in C. unfold wl_wt in C. cbn [wl_boxes wl_end] in *. rewrite B in C. cbn [map Rsum] in C. cbn [List.length] in *. lra. }
    split; [eapply suffix_lighter; [exact H|rewrite B; exact E1]|]. intros l [= <-]. split; [|reflexivity].
    unfold wl_adv, cost. cbn [wl_boxes wl_end tail_adv w_boxes w_tail option_map]. rewrite E2. cbn [app]. rewrite app_length. cbn [List.length].
    assert (IP := INR_d (List.length pre)). rewrite !plus_INR in *. change (INR 1) with 1 in *. change (INR 2) with (1 + 1). lra.
  - apply rmap_inv in E as ([x' y'] & E & E2). cbn in E2. injection E2 as -> ->.
    destruct (IH sp a er x' y' H S P C E) as (I1 & I2). split; [apply with_cmd_lighter, I1|exact I2].
Qed.
Lemma wl_minimal_lighter w : forall x y, wl_good w -> wl_minimal w = (x, Some y) -> lighter y w.
Proof.
  induction w as [b|w|w IH c]; intros x y H E; cbn [wl_minimal] in E; [discriminate| |].
  - unfold word_minimal in E. destruct (w_boxes w) as [|b [|b2 r]] eqn:B; cbn in E; try discriminate. injection E as <- <-.
    eapply (suffix_lighter w [] b b2 r); auto.
  - destruct (wl_minimal w) as [x' [y'|]] eqn:M; [|discriminate]. injection E as <- <-. apply with_cmd_lighter. eauto.
Qed.
Lemma minimal_one (w : wordlike) : forall a b, wl_minimal w = (a, b) -> (List.length (wl_boxes a) <= 1)%nat.
Proof.
  induction w as [b0|w|w IH c]; intros a b E; cbn in E.
  - injection E as <- <-. auto.
  - unfold word_minimal in E. destruct w as [[|b1 [|b2 r]] t st]; cbn in E; injection E as <- <-; cbn; auto.
  - destruct (wl_minimal w) as [x y]. specialize (IH x y eq_refl). destruct y as [y|]; injection E as <- <-; auto.
    destruct c; exact IH.
Qed.
(** ** one line *)
Lemma take_line_near ws (W : @num (Float64 pow)) q l : Forall wl_good ws -> fin W -> Rabs (val W) + room ws <= cap k ->
  take_line ws W = Ok (q, l) ->
  (line_adv (prune_last (l_words l)) <= val W + line_cost (l_words l) \/ one_fragment (l_words l) \/ ws = [])
  /\ Forall wl_good (opt_list q) /\ room (opt_list q) <= room ws
  /\ (forall c, Forall (fun w => cost w <= c) ws -> Forall (fun w => cost w <= c) (opt_list q)).
Proof.
  intros H FW C. unfold take_line. destruct (fit_words ws W []) as [[c sp] stop] eqn:F.
  assert (CW : close W (val W) 0) by (split; [exact FW|]; replace (val W - val W) with 0 by ring; rewrite Rabs_R0; lra).
  apply (fit_words_near _ _ (val W) 0) in F as (t & -> & F0 & F1 & F2 & F3); auto; try lra. cbn [app].
  destruct stop as [[w r]|].
  2:{ specialize (F3 eq_refl). subst t. intros E. injection E as <- <-. cbn [l_words opt_list].
      split; [|split; [constructor|split; [apply room_pos, H|constructor]]]. destruct ws as [|w ws]; [right; right; reflexivity|left]. specialize (F1 ltac:(discriminate)). lra. }
  destruct (F2 w r eq_refl) as [EW _]. clear F2 F3. rewrite EW in H. apply Forall_app in H as [Ht Hr].
  inversion Hr as [|? ? Hw Hr']; subst x l0. intros E. apply bind_ok in E as ([last dangling] & HY & E).
  assert (LT := line_adv_abs t Ht). assert (LC := line_cost_pos t). assert (RR := room_pos r Hr').
  assert (RE : room ws = room t + ((wl_wt w + cost w) + room r)) by (rewrite EW, room_app; reflexivity).
  assert (TR := Rabs_triang (val W) (- line_adv t)). rewrite Rabs_Ropp in TR.
  destruct (wl_hyphenate_near w sp _ _ last dangling Hw F0 ltac:(lra) ltac:(unfold Rminus in *; lra) HY) as (LD & LL).
  assert (CR : forall c, Forall (fun w => cost w <= c) ws -> cost w <= c /\ Forall (fun w => cost w <= c) r).
  { intros c0 F. rewrite EW in F. apply Forall_app in F as (_ & F). inversion F; auto. }
  assert (REST : forall y, lighter y w -> Forall wl_good (y :: r) /\ room (y :: r) <= room ws
    /\ (forall c, Forall (fun w => cost w <= c) ws -> Forall (fun w => cost w <= c) (y :: r))).
  { intros y (Y1 & Y2 & Y3). split; [constructor; auto|]. split; [|intros c0 F; destruct (CR c0 F); constructor; [lra|assumption]]. change (room (y :: r)) with ((wl_wt y + cost y) + room r). assert (RT := room_pos t Ht). lra. }
  destruct last as [lw|].
  - destruct (LL lw eq_refl) as (L1 & L2). injection E as <- <-. cbn [l_words opt_list]. split; [left|apply REST, LD].
    rewrite prune_snoc, line_adv_app, line_cost_app, one_adv, one_cost, pruned_adv.
    unfold wl_adv in L1. rewrite L2 in L1. cbn [tail_adv] in L1. fold (wl_padv lw) in L1. lra.
  - clear LL. destruct (rev t) as [|x rt] eqn:RT.
    + assert (t = []) as -> by (destruct t; auto; apply (f_equal (@List.length _)) in RT; rewrite rev_length in RT; discriminate).
      destruct (wl_minimal dangling) as [x leftover] eqn:M. assert (ONE := minimal_one _ _ _ M).
      assert (FR : one_fragment [x]) by (exists x; auto).
      destruct leftover as [y|].
      * injection E as <- <-. cbn [l_words opt_list]. split; [auto|]. apply REST. apply wl_minimal_lighter in M; [|apply LD].
        destruct LD as (D1 & D2 & D3). destruct M as (M1 & M2 & M3). split; [exact M1|]. lra.
      * destruct r as [|r0 r]; injection E as <- <-; cbn [l_words opt_list]; (split; [auto|]).
        -- split; [constructor|]. split; [|constructor]. rewrite RE. change (room []) with 0. assert (A := wl_wt_pos w Hw). assert (B := cost_pos w). lra.
        -- split; [exact Hr'|]. split; [|intros c0 F; apply CR, F]. rewrite RE. change (room []) with 0. assert (A := wl_wt_pos w Hw). assert (B := cost_pos w). lra.
    + assert (ET : t = rev rt ++ [x]) by (rewrite <- (rev_involutive t), RT; reflexivity).
      specialize (F1 ltac:(intros X; rewrite X in RT; discriminate)).
      destruct (ntruthy (wl_prunable x)) eqn:TT; injection E as <- <-; cbn [l_words opt_list]; (split; [left|apply REST, LD]).
      * rewrite ET, prune_snoc in F1. rewrite ET, removelast_last, prune_snoc, line_cost_app, one_cost, pruned_cost.
        assert (PP : wl_adv (wl_pruned (wl_pruned x)) = wl_adv (wl_pruned x)) by (rewrite !pruned_adv; unfold wl_padv; rewrite pruned_boxes; reflexivity).
        rewrite line_adv_app, one_adv, PP. rewrite line_adv_app, one_adv, line_cost_app, one_cost in F1. lra.
      * lra.
Qed.
Lemma steps_near q ls z : steps q ls z -> Forall wl_good (opt_list q) ->
  Forall (fun p : num * line => fin (fst p) /\ Rabs (val (fst p)) + room (opt_list q) <= cap k) ls ->
  opt_list q <> [] ->
  Forall (fun p : num * line => line_adv (prune_last (l_words (snd p))) <= val (fst p) + line_cost (l_words (snd p))
                              \/ one_fragment (l_words (snd p))) ls.
Proof.
  induction 1 as [q|ws w q l r z T ST IH]; intros H C NE; [constructor|]. cbn [opt_list] in *.
  inversion C as [|? ? (C1 & C2) C3]; subst. cbn [fst snd] in *.
  destruct (take_line_near _ _ _ _ H C1 C2 T) as (T1 & T2 & T3 & _). constructor; [cbn [fst snd]; tauto|].
  destruct r as [|p0 r]; [constructor|]. apply IH; [exact T2| |].
  - eapply Forall_impl; [|exact C3]. intros p (P1 & P2). split; [exact P1|lra].
  - destruct q as [q|]; [|inversion ST]. eapply take_line_rest; eauto.
Qed.
(** ** the space left on a line *)
Lemma prunable_near w : wl_good w -> close (wl_prunable w) (tail_adv (wl_end w)) e.
Proof.
  intros (_ & T). induction w as [b|w|w IH c]; cbn [wl_prunable wl_end] in *; [| |exact (IH T)].
  - eapply close_weak; [exact E0|apply zero_close].
  - unfold word_prunable. destruct (w_tail w) as [t|]; cbn [option_map tail_adv] in *; [apply (GTB _ T)|].
    eapply close_weak; [exact E0|apply zero_close].
Qed.
Lemma hyphenated_near w : forall (sp : @num (Float64 pow)) a er lw y, wl_good w -> close sp a er -> 0 <= er ->
  Rabs a + er + (wl_wt w + cost w) <= cap k -> wl_hyphenate w sp = Ok (Some lw, y) ->
  close (wl_width lw) (wl_adv lw) (cost lw - d) /\ Rabs (wl_adv lw) <= wl_wt w /\ cost lw <= cost w.
Proof.
  induction w as [b|w|w IH c]; intros sp a er x y H SP P C E; cbn [wl_hyphenate] in E.
  - discriminate.
  - apply rmap_inv in E as ([x' y'] & E & E2). cbn in E2. unfold word_hyphenate in E.
    destruct (w_boxes w) as [|b rest] eqn:B; [apply Ok_inj in E; injection E as <- <-; discriminate|].
    destruct (nltb _ _) eqn:L; [apply Ok_inj in E; injection E as <- <-; discriminate|].
    apply bind_ok in E as ([[[fit st] nb] r] & HL & E). apply Ok_inj in E. injection E as <- <-. cbn in E2. injection E2 as -> ->.
    assert (TP := tail_pos _ H). assert (HG := proj1 H). cbn [wl_boxes] in HG. rewrite B in HG. inversion HG as [|? ? G1 G2]; subst.
    assert (D := d_pos). assert (AP := Rabs_pos a).
    rewrite cost_eq in C. unfold wl_wt in C. cbn [wl_boxes wl_end] in *. rewrite B in C. cbn [List.length] in C.
    eapply hyph_loop_near in HL as (pre & z & E1 & E2 & _); eauto.
    2:{ cbn [map Rsum] in C. lra. }
    rewrite E1 in *. apply Forall_app in HG as (GP & GZ). inversion GZ as [|? ? Z1 Z2]; subst.
    assert (WP := wts_pos pre GP). assert (WR := wts_pos _ Z2). destruct (GH z Z1) as (H1 & H2).
    rewrite map_app, Rsum_app in C. cbn [map Rsum] in C.
    assert (LE : INR (S (List.length rest)) = INR (List.length pre) + 1 + INR (S (List.length r))).
    { change (S (List.length rest)) with (List.length (b :: rest)). rewrite E1, app_length, plus_INR. cbn [List.length]. rewrite !S_INR. ring. }
    rewrite LE in C. assert (IR := INR_d (S (List.length r))). assert (IP := INR_d (List.length pre)).
    cbn [map Rsum] in WR. assert (ZP := wt_pos z Z1). assert (NP := wt_pos nb (Forall_inv Z2)). 
    assert (X : close (nsum (map box_width (pre ++ [box_with_hyphen z]))) (Rsum (map adv (pre ++ [box_with_hyphen z]))) (INR (List.length pre + 1) * d)).
    { replace (List.length pre + 1)%nat with (List.length (map box_width (pre ++ [box_with_hyphen z]))) by (rewrite map_length, app_length; reflexivity).
      unfold d. apply nsum_near; auto.
      - rewrite !map_app. apply Forall2_app; [|constructor; [exact H1|constructor]].
        clear -GP GB. induction GP as [|q l Q _ IHl]; cbn; constructor; [apply GB, Q|exact IHl].
      - fold d. rewrite map_length, app_length, plus_INR. change (INR (List.length [box_with_hyphen z])) with 1.
        rewrite !map_app, Rsum_app. cbn [map Rsum]. assert (A := advs_wt pre GP). lra. }
    rewrite cost_eq. unfold wl_adv, wl_wt. cbn [wl_width wl_boxes wl_end option_map tail_adv tail_wt]. unfold word_width, word_pruned_width.
    cbn [w_boxes w_tail option_map tail_adv app]. rewrite app_length. cbn [List.length].
    assert (HP : Rabs (Rsum (map adv (pre ++ [box_with_hyphen z]))) <= Rsum (map wt pre) + wt z).
    { rewrite map_app, Rsum_app. cbn [map Rsum]. assert (A := advs_abs pre GP). assert (T := Rabs_triang (Rsum (map adv pre)) (adv (box_with_hyphen z))).
      rewrite Rplus_0_r. lra. }
    rewrite plus_INR in *. change (INR 1) with 1 in *.
    split; [|split].
    + replace (Rsum (map adv (pre ++ [box_with_hyphen z])) + 0) with (Rsum (map adv (pre ++ [box_with_hyphen z])) + 0) by ring.
      eapply close_weak; [|eapply (close_add k); [exact SK|exact X|apply zero_close|]].
      * unfold d in *. lra.
      * rewrite Rplus_0_r, Rplus_0_r. lra.
    + rewrite Rplus_0_r. rewrite B, (map_app wt), (Rsum_app (map wt pre)). cbn [map Rsum]. lra.
    + rewrite cost_eq. cbn [wl_boxes]. rewrite B, <- E1. cbn [List.length]. rewrite LE. lra.
  - apply rmap_inv in E as ([x' y'] & E & E2). cbn in E2. injection E2 as <- _. exact (IH sp a er x y' H SP P C E).
Qed.
Lemma minimal_whole w : forall x, wl_good w -> wl_minimal w = (x, None) -> lighter x w.
Proof.
  induction w as [b|w|w IH c]; intros x H E; cbn [wl_minimal] in E.
  - injection E as <-. apply lighter_refl, H.
  - unfold word_minimal in E. destruct (w_boxes w) as [|b [|b2 r]]; cbn in E; try discriminate; injection E as <-; apply lighter_refl, H.
  - destruct (wl_minimal w) as [x' [y'|]] eqn:M; [discriminate|]. injection E as <-. apply with_cmd_lighter. eauto.
Qed.
Lemma minimal_end w : forall x y, wl_minimal w = (x, Some y) -> wl_end x = None.
Proof.
  induction w as [b|w|w IH c]; intros x y E; cbn [wl_minimal] in E; [discriminate| |].
  - unfold word_minimal in E. destruct (w_boxes w) as [|b [|b2 r]]; cbn in E; try discriminate. injection E as <- _. reflexivity.
  - destruct (wl_minimal w) as [x' [y'|]] eqn:M; [|discriminate]. injection E as <- _. eauto.
Qed.
Lemma take_line_space ws (W : @num (Float64 pow)) q l : Forall wl_good ws -> fin W -> Rabs (val W) + room ws <= cap k ->
  take_line ws W = Ok (Some q, l) ->
  Forall (fun w => wl_end w = None) (l_words l)
  \/ (close (l_space l) (val W - line_adv (l_words l)) (line_cost (l_words l) + d)
      /\ Rabs (val W - line_adv (l_words l)) <= cap k
      /\ Forall (fun w => match wl_end w with Some t => GT t | None => True end) (l_words l)).
Proof.
  intros H FW C. unfold take_line. destruct (fit_words ws W []) as [[c sp] stop] eqn:F.
  assert (CW : close W (val W) 0) by (split; [exact FW|]; replace (val W - val W) with 0 by ring; rewrite Rabs_R0; lra).
  apply (fit_words_near _ _ (val W) 0) in F as (t & -> & F0 & F1 & F2 & F3); auto; try lra. cbn [app].
  destruct stop as [[w r]|]; [|intros E; discriminate].
  destruct (F2 w r eq_refl) as [EW _]. clear F2 F3. rewrite EW in H. apply Forall_app in H as [Ht Hr].
  inversion Hr as [|? ? Hw Hr']; subst x l0. intros E. apply bind_ok in E as ([last dangling] & HY & E).
  assert (LT := line_adv_abs t Ht). assert (LC := line_cost_pos t). assert (RR := room_pos r Hr').
  assert (RE : room ws = room t + ((wl_wt w + cost w) + room r)) by (rewrite EW, room_app; reflexivity).
  assert (TR := Rabs_triang (val W) (- line_adv t)). rewrite Rabs_Ropp in TR.
  assert (D := d_pos). assert (U := ulp2_pos k). assert (DE : d = e + ulp2 k) by reflexivity.
  assert (WWP := wl_wt_pos w Hw). assert (CWP := cost_pos w). rewrite Rplus_0_l in F0.
  assert (TT : Forall (fun w => match wl_end w with Some t => GT t | None => True end) t) by (eapply Forall_impl; [|exact Ht]; intros v (_ & V); exact V).
  assert (CC : Rabs (val W - line_adv t) + line_cost t + (wl_wt w + cost w) <= cap k) by (unfold Rminus in *; lra).
  destruct (wl_hyphenate_near w sp _ _ last dangling Hw F0 LC CC HY) as (LD & LL).
  destruct last as [lw|].
  - destruct (LL lw eq_refl) as (L1 & L2). destruct (hyphenated_near w sp _ _ lw dangling Hw F0 LC CC HY) as (X1 & X2 & X3).
    injection E as _ <-. cbn [l_words l_space]. right.
    rewrite line_adv_app, line_cost_app, one_adv, one_cost.
    assert (KW : Rabs (val W - (line_adv t + wl_adv lw)) <= cap k).
    { replace (val W - (line_adv t + wl_adv lw)) with (val W - line_adv t + - wl_adv lw) by ring.
      assert (T := Rabs_triang (val W - line_adv t) (- wl_adv lw)). rewrite Rabs_Ropp in T. lra. }
    split; [|split; [exact KW|]].
    + change (nsub sp (wl_width lw)) with (bsub sp (wl_width lw)).
      replace (val W - (line_adv t + wl_adv lw)) with (val W - line_adv t - wl_adv lw) by ring.
      eapply close_weak; [|eapply (close_sub k); [exact SK|exact F0|exact X1|]]; [lra|].
      assert (T := Rabs_triang (val W - line_adv t) (- wl_adv lw)). rewrite Rabs_Ropp in T. unfold Rminus in *. lra.
    + apply Forall_app. split; [exact TT|]. constructor; [rewrite L2; exact Logic.I|constructor].
  - clear LL. destruct (rev t) as [|x rt] eqn:RT.
    + assert (t = []) as -> by (destruct t; auto; apply (f_equal (@List.length _)) in RT; rewrite rev_length in RT; discriminate).
      destruct (wl_minimal dangling) as [x leftover] eqn:M. assert (ONE := minimal_one _ _ _ M).
      destruct leftover as [y|]; [left; injection E as _ <-; constructor; [eapply minimal_end; eauto|constructor]|right].
      destruct r as [|r0 r]; injection E as E1 <-; [discriminate|]. cbn [l_words l_space]. rewrite one_adv, one_cost.
      apply minimal_whole in M; [|apply LD]. destruct LD as (D1 & D2 & D3). destruct M as (M1 & M2 & M3). 
      change (line_adv []) with 0 in *. change (line_cost []) with 0 in *. assert (AP := Rabs_pos (val W - 0)). destruct (wl_widths x M1 ltac:(lra)) as (XW & _).
      assert (XA := wl_adv_abs x M1). rewrite Rminus_0_r in *.
      assert (KW : Rabs (val W - wl_adv x) <= cap k) by (assert (T := Rabs_triang (val W) (- wl_adv x)); rewrite Rabs_Ropp in T; unfold Rminus in *; lra).
      split; [|split; [exact KW|]].
      * change (nsub sp (wl_width x)) with (bsub sp (wl_width x)).
        eapply close_weak; [|eapply (close_sub k); [exact SK|exact F0|exact XW|]]; [lra|].
        assert (T := Rabs_triang (val W) (- wl_adv x)). rewrite Rabs_Ropp in T. unfold Rminus in *. lra.
      * constructor; [apply M1|constructor].
    + assert (ET : t = rev rt ++ [x]) by (rewrite <- (rev_involutive t), RT; reflexivity).
      specialize (F1 ltac:(intros X; rewrite X in RT; discriminate)).
      assert (Hx : wl_good x) by (rewrite ET in Ht; apply Forall_app in Ht as (_ & Ht); exact (Forall_inv Ht)).
      assert (PX := prunable_near x Hx).
      assert (AD : line_adv t = line_adv (prune_last t) + tail_adv (wl_end x)).
      { rewrite ET, prune_snoc, !line_adv_app, !one_adv, pruned_adv. unfold wl_adv, wl_padv. ring. }
      assert (PC : cost x <= line_cost t).
      { rewrite ET, line_cost_app, one_cost. assert (Z := line_cost_pos (rev rt)). lra. }
      destruct (ntruthy (wl_prunable x)) eqn:TX; injection E as _ <-; cbn [l_words l_space]; right.
      * assert (EP : removelast t ++ [wl_pruned x] = prune_last t) by (rewrite ET, removelast_last, prune_snoc; reflexivity).
        assert (LP : line_cost (prune_last t) = line_cost t) by (rewrite ET, prune_snoc, !line_cost_app, !one_cost, pruned_cost; reflexivity).
        rewrite EP, LP.
        assert (G1 : Rabs (line_adv (prune_last t)) <= room t - line_cost t).
        { rewrite ET, prune_snoc, line_adv_app, one_adv, pruned_adv, room_app, line_cost_app, one_cost.
          rewrite ET in Ht. apply Forall_app in Ht as (Ha & _). assert (Z := line_adv_abs _ Ha). assert (Z2 := wl_padv_abs x Hx).
          change (room [x]) with ((wl_wt x + cost x) + 0).
          assert (T := Rabs_triang (line_adv (rev rt)) (wl_padv x)). lra. }
        assert (KW : Rabs (val W - line_adv (prune_last t)) <= cap k).
        { assert (T := Rabs_triang (val W) (- line_adv (prune_last t))). rewrite Rabs_Ropp in T. unfold Rminus in *. lra. }
        split; [|split; [exact KW|]].
        -- change (nadd sp (wl_prunable x)) with (badd sp (wl_prunable x)).
           replace (val W - line_adv (prune_last t)) with (val W - line_adv t + tail_adv (wl_end x)) by (rewrite AD; ring).
           eapply close_weak; [|eapply (close_add k); [exact SK|exact F0|exact PX|]]; [lra|].
           replace (val W - line_adv t + tail_adv (wl_end x)) with (val W + - line_adv (prune_last t)) by (rewrite AD; ring).
           assert (T := Rabs_triang (val W) (- line_adv (prune_last t))). rewrite Rabs_Ropp in T.
           assert (CE : e <= cost w) by (rewrite cost_eq; assert (I0 := INR_d (List.length (wl_boxes w))); lra). lra.
        -- rewrite <- EP. apply Forall_app. split.
           ++ rewrite ET, removelast_last. rewrite ET in TT. apply Forall_app in TT. apply TT.
           ++ constructor; [|constructor]. rewrite pruned_tail. exact Logic.I.
      * split; [|split].
        -- eapply close_weak; [|exact F0]. lra.
        -- lra.
        -- exact TT.
Qed.
(** the number of pieces does not grow *)
Lemma hyph_loop_boxes rest : forall b (sp : @num (Float64 pow)) fit0 fit st nb r, hyph_loop b rest sp fit0 = Ok (fit, st, nb, r) ->
  (List.length fit <= List.length fit0 + S (List.length rest) /\ S (List.length r) <= S (List.length rest))%nat.
Proof.
  induction rest as [|x rest IH]; intros b sp fit0 fit st nb r E; cbn [hyph_loop] in E; [discriminate|].
  destruct (nltb (nsub sp (box_width b)) _).
  - apply Ok_inj in E. injection E as <- <- <- <-. rewrite app_length. cbn. lia.
  - apply IH in E as (E1 & E2). rewrite app_length in E1. cbn in *. lia.
Qed.
Definition frag (w : wordlike) : nat := (List.length (wl_boxes w) + 2)%nat.
Definition frags_of (l : list wordlike) : nat := list_sum (map frag l).
Lemma frags_app a b : frags_of (a ++ b) = (frags_of a + frags_of b)%nat.
Proof. unfold frags_of. rewrite map_app, list_sum_app. reflexivity. Qed.
Lemma frags_cons a b : frags_of (a :: b) = (frag a + frags_of b)%nat.
Proof. reflexivity. Qed.
Lemma hyphenate_frag w : forall (sp : @num (Float64 pow)) x y, wl_hyphenate w sp = Ok (x, y) ->
  (frag y <= frag w /\ forall l, x = Some l -> frag l <= frag w)%nat.
Proof.
  unfold frag. induction w as [b|w|w IH c]; intros sp x y E; cbn [wl_hyphenate] in E.
  - apply Ok_inj in E. injection E as <- <-. split; [lia|discriminate].
  - apply rmap_inv in E as ([x' y'] & E & E2). cbn in E2. injection E2 as -> ->. unfold word_hyphenate in E.
    assert (UL : List.length (w_boxes (word_without_init_kern w)) = List.length (w_boxes w)).
    { unfold word_without_init_kern. destruct (w_boxes w) as [|b0 l0] eqn:B0; [destruct (w_tail w); [destruct (ntruthy _)|]|destruct (box_has_init_kern b0)]; cbn [w_boxes]; rewrite ?B0; reflexivity. }
    destruct (w_boxes w) as [|b rest] eqn:B.
    { apply Ok_inj in E. injection E as <- <-. cbn [wl_boxes]. rewrite UL. split; [cbn; lia|discriminate]. }
    destruct (nltb _ _).
    { apply Ok_inj in E. injection E as <- <-. cbn [wl_boxes]. rewrite UL, B. split; [cbn; lia|discriminate]. }
    apply bind_ok in E as ([[[fit st] nb] r] & HL & E). apply Ok_inj in E. injection E as <- <-.
    apply hyph_loop_boxes in HL as (H1 & H2). cbn [wl_boxes w_boxes List.length] in *. rewrite B. cbn [List.length] in *.
    split; [lia|]. intros l [= <-]. cbn [wl_boxes w_boxes]. lia.
  - apply rmap_inv in E as ([x' y'] & E & E2). cbn in E2. injection E2 as -> ->. destruct (IH _ _ _ E) as (I1 & I2). split; [|exact I2].
    destruct c; exact I1.
Qed.
Lemma minimal_frag w : forall x y, wl_minimal w = (x, y) -> (frag x <= frag w /\ forall z, y = Some z -> frag z <= frag w)%nat.
Proof.
  unfold frag. induction w as [b|w|w IH c]; intros x y E; cbn [wl_minimal] in E.
  - injection E as <- <-. split; [lia|discriminate].
  - unfold word_minimal in E. destruct w as [[|b1 [|b2 r]] t st]; cbn in E; injection E as <- <-; cbn.
    + split; [lia|discriminate].
    + split; [lia|discriminate].
    + split; [lia|]. intros z [= <-]. cbn. lia.
  - destruct (wl_minimal w) as [x' y'] eqn:M. destruct (IH _ _ eq_refl) as (I1 & I2). destruct y' as [y'|]; injection E as <- <-.
    + split; [exact I1|]. intros z [= <-]. specialize (I2 y' eq_refl). destruct c; exact I2.
    + split; [destruct c; exact I1|discriminate].
Qed.
Lemma fit_words_frags ws : forall (sp : @num (Float64 pow)) c0 c sp' stop, fit_words ws sp c0 = (c, sp', stop) ->
  (frags_of c + (match stop with Some (w, r) => frag w + frags_of r | None => 0 end) = frags_of c0 + frags_of ws)%nat.
Proof.
  induction ws as [|w r IH]; intros sp c0 c sp' stop; cbn [fit_words].
  - injection 1 as <- <- <-. reflexivity.
  - destruct (nltb _ _); [injection 1 as <- <- <-; rewrite frags_cons; lia|]. intros E. apply IH in E. rewrite frags_app in E. rewrite frags_cons.
    change (frags_of [w]) with (frag w + 0)%nat in E. lia.
Qed.
Lemma take_line_frags ws (W : @num (Float64 pow)) q l : take_line ws W = Ok (q, l) ->
  (frags_of (l_words l) <= frags_of ws /\ frags_of (opt_list q) <= frags_of ws)%nat.
Proof.
  unfold take_line. destruct (fit_words ws W []) as [[c sp] stop] eqn:F. apply fit_words_frags in F. change (frags_of []) with 0%nat in F.
  destruct stop as [[w r]|].
  2:{ intros E. injection E as <- <-. cbn [l_words opt_list]. change (frags_of []) with 0%nat. lia. }
  intros E. apply bind_ok in E as ([last dangling] & HY & E). apply hyphenate_frag in HY as (H1 & H2).
  destruct last as [lw|].
  - specialize (H2 lw eq_refl). injection E as <- <-. cbn [l_words opt_list]. rewrite frags_app, !frags_cons. change (frags_of []) with 0%nat. lia.
  - destruct (rev c) as [|x rt] eqn:RT.
    + destruct (wl_minimal dangling) as [x leftover] eqn:M. apply minimal_frag in M as (M1 & M2).
      destruct leftover as [y|]; [specialize (M2 y eq_refl); injection E as <- <-; cbn [l_words opt_list]; rewrite !frags_cons; change (frags_of []) with 0%nat; lia|].
      destruct r as [|r0 r]; injection E as <- <-; cbn [l_words opt_list]; rewrite ?frags_cons in *; change (frags_of []) with 0%nat; lia.
    + assert (ET : c = rev rt ++ [x]) by (rewrite <- (rev_involutive c), RT; reflexivity).
      destruct (ntruthy (wl_prunable x)); injection E as <- <-; cbn [l_words opt_list]; rewrite frags_cons; [|lia].
      rewrite ET in *. rewrite removelast_last, frags_app in *. rewrite !frags_cons in *.
      assert (FP : frag (wl_pruned x) = frag x) by (unfold frag; rewrite pruned_boxes; reflexivity). rewrite FP. lia.
Qed.
Lemma frags_cost l : line_cost l = INR (frags_of l) * d.
Proof.
  unfold line_cost, frags_of. induction l as [|w r IH]; [cbn; ring|]. cbn [map Rsum list_sum fold_right]. rewrite plus_INR, IH. unfold cost, frag, list_sum. ring.
Qed.
(** every line but the one where the text ends: the space left is what its exact width leaves *)
Lemma steps_space q ls z : steps q ls z -> Forall wl_good (opt_list q) ->
  Forall (fun p : num * line => fin (fst p) /\ Rabs (val (fst p)) + room (opt_list q) <= cap k) ls ->
  Forall (fun p : num * line => Forall (fun w => wl_end w = None) (l_words (snd p))
    \/ (close (l_space (snd p)) (val (fst p) - line_adv (l_words (snd p))) (line_cost (l_words (snd p)) + d)
        /\ Rabs (val (fst p) - line_adv (l_words (snd p))) <= cap k
        /\ (frags_of (l_words (snd p)) <= frags_of (opt_list q))%nat
        /\ Forall (fun w => match wl_end w with Some t => GT t | None => True end) (l_words (snd p)))) (removelast ls).
Proof.
  induction 1 as [q|ws w q l r z T ST IH]; intros H C; [constructor|]. cbn [opt_list] in *.
  destruct r as [|p0 r]; [constructor|]. change (removelast ((w, l) :: p0 :: r)) with ((w, l) :: removelast (p0 :: r)).
  inversion C as [|? ? (C1 & C2) C3]; subst. cbn [fst snd] in *.
  destruct (take_line_near _ _ _ _ H C1 C2 T) as (_ & T2 & T3 & _). destruct (take_line_frags _ _ _ _ T) as (F1 & F2).
  constructor.
  - cbn [fst snd]. destruct q as [q|]; [|inversion ST]. destruct (take_line_space _ _ _ _ H C1 C2 T) as [X|(X1 & XK & X3)]; [left; exact X|right].
    repeat split; auto; apply X1.
  - eapply Forall_impl; [|apply IH; [exact T2|]].
    + intros p [X|(X1 & XK & X3 & X4)]; [left; exact X|right]. split; [exact X1|]. split; [exact XK|]. split; [lia|exact X4].
    + eapply Forall_impl; [|exact C3]. intros p (P1 & P2). split; [exact P1|lra].
Qed.
(** ** hyphenation succeeds, when a hyphen is wider than the errors of a word *)
Context (HB : box -> Prop) (hmin : R).
Hypothesis GHY : forall b, G b -> HB b -> adv b + hmin <= adv (box_with_hyphen b).
Lemma hyph_loop_ok rest : forall b (sp : @num (Float64 pow)) a er fit0, G b -> Forall G rest -> HB b -> Forall HB rest ->
  close sp a er -> 0 <= er -> Rabs a + er + (wt b + Rsum (map wt rest)) + INR (S (List.length rest)) * d <= cap k ->
  nltb sp (box_width (box_with_hyphen b)) = false ->
  a + er + INR (S (List.length rest)) * d < Rsum (map adv (b :: rest)) + hmin ->
  exists x, hyph_loop b rest sp fit0 = Ok x.
Proof.
  induction rest as [|x rest IH]; intros b sp a er fit0 B R Hb Hr S P C L LT; cbn [hyph_loop]; assert (D := d_pos); assert (BP := wt_pos b B);
    destruct (GB b B) as (B1 & B2); destruct (GH b B) as (H1 & H2); assert (U := ulp2_pos k); assert (ED : e <= d) by (unfold d; lra); assert (AP := Rabs_pos a).
  - exfalso. assert (LE := not_less _ _ (proj1 S) (proj1 H1) L). destruct S as (_ & S2). destruct H1 as (_ & H3).
    apply abs_out in S2. apply abs_out in H3. assert (W := GHY b B Hb). cbn [map Rsum List.length INR] in LT. lra.
  - inversion R as [|? ? X R']; subst. inversion Hr as [|? ? Hx Hr']; subst. assert (XP := wt_pos x X). assert (RP := wts_pos rest R').
    assert (IP := INR_d (List.length rest)).
    destruct (nltb (nsub sp (box_width b)) _) eqn:L2; [eauto|]. cbn [map Rsum List.length] in *. rewrite !S_INR in *.
    assert (T := Rabs_triang a (- adv b)). rewrite Rabs_Ropp in T.
    apply (IH x _ (a - adv b) (er + d)); auto; try lra.
    + change (nsub sp (box_width b)) with (bsub sp (box_width b)).
      eapply close_weak; [|eapply (close_sub k); [exact SK|exact S|exact B1|]]; unfold d, Rminus in *; lra.
    + rewrite ?S_INR. unfold Rminus. lra.
Qed.
Lemma wl_hyphenate_ok w : forall (sp : @num (Float64 pow)), wl_good w -> Forall HB (wl_boxes w) -> fin sp ->
  Rabs (val sp) + (wl_wt w + cost w) <= cap k -> 2 * cost w <= hmin ->
  nltb sp (wl_pruned_width w) = true -> exists x y, wl_hyphenate w sp = Ok (x, y).
Proof.
  induction w as [b|w|w IH c]; intros sp H HH S C HM L; cbn [wl_hyphenate].
  - eauto.
  - assert (AP := Rabs_pos (val sp)). destruct (wl_widths _ H ltac:(lra)) as (_ & WP). cbn [wl_pruned_width] in *.
    assert (LT : val sp < val (word_pruned_width w)) by (apply lt_val; [exact S|apply WP|exact L]).
    assert (TP := tail_pos _ H). assert (D := d_pos). assert (CE := cost_eq (WWord w)). destruct WP as (_ & WP). apply abs_out in WP.
    unfold word_hyphenate. destruct (w_boxes w) as [|b rest] eqn:B; [cbn; eauto|].
    destruct (nltb sp (box_width (box_with_hyphen b))) eqn:L1; [cbn; eauto|].
    assert (HG := proj1 H). cbn [wl_boxes] in *. rewrite B in *. inversion HG as [|? ? G1 G2]; subst. inversion HH as [|? ? H1 H2]; subst.
    unfold wl_padv in WP. unfold wl_wt in C. cbn [wl_boxes] in *. rewrite B in *. cbn [List.length map Rsum] in *.
    destruct (hyph_loop_ok rest b sp (val sp) 0 [] G1 G2 H1 H2) as ([[[fit st] nb] r] & ->).
    + split; [exact S|]. replace (val sp - val sp) with 0 by ring. rewrite Rabs_R0. lra.
    + lra.
    + lra.
    + exact L1.
    + cbn [map Rsum]. lra.
    + cbn. eauto.
  - destruct (IH sp H HH S C HM L) as (x & y & ->). cbn. eauto.
Qed.
Lemma take_line_ok ws (W : @num (Float64 pow)) : Forall wl_good ws -> Forall (fun w => Forall HB (wl_boxes w)) ws ->
  Forall (fun w => cost w <= hmin / 2) ws -> fin W -> Rabs (val W) + room ws <= cap k -> exists r, take_line ws W = Ok r.
Proof.
  intros H HH HC FW C. unfold take_line. destruct (fit_words ws W []) as [[c sp] [[w r]|]] eqn:F; [|eauto].
  assert (CW : close W (val W) 0) by (split; [exact FW|]; replace (val W - val W) with 0 by ring; rewrite Rabs_R0; lra).
  apply (fit_words_near _ _ (val W) 0) in F as (t & -> & F0 & F1 & F2 & F3); auto; try lra. cbn [app].
  destruct (F2 w r eq_refl) as (EW & L). rewrite EW in H, HH, HC. apply Forall_app in H as [Ht Hr]. apply Forall_app in HH as [_ HH]. apply Forall_app in HC as [_ HC].
  inversion Hr as [|? ? Hw Hr']; subst x l. inversion HH as [|? ? HHw _]; subst x l. inversion HC as [|? ? HCw _]; subst x l.
  assert (LT := line_adv_abs t Ht). assert (LC := line_cost_pos t). assert (RR := room_pos r Hr').
  assert (RE : room ws = room t + ((wl_wt w + cost w) + room r)) by (rewrite EW, room_app; reflexivity).
  assert (TR := Rabs_triang (val W) (- line_adv t)). rewrite Rabs_Ropp in TR.
  destruct (wl_hyphenate_ok w sp Hw HHw (proj1 F0)) as (x & y & E); [|lra|exact L|].
  - destruct F0 as (_ & F0). assert (T2 := Rabs_triang (val W - line_adv t) (val sp - (val W - line_adv t))).
    replace (val W - line_adv t + (val sp - (val W - line_adv t))) with (val sp) in T2 by ring. unfold Rminus in *. lra.
  - rewrite E. cbn [bind]. destruct x; [eauto|]. destruct (rev t).
    + destruct (wl_minimal y) as [x' [y'|]]; [eauto|]. destruct r; eauto.
    + destruct (ntruthy _); eauto.
Qed.
End Lines.
