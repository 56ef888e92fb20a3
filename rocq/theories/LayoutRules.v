(** * LayoutRules: first-fit paragraphs go on after a rule that did not fit *)
From Coq Require Import QArith Qcanon Qround Lqa.
From Verif Require Import Base Num Fonts State Style Words Parse WordsSpec WordProofs Render RenderSpec RenderProofs WordWidth WordOps
  Firstfit LineSpec FirstfitProofs FirstfitWidth Properties_Firstfit KnuthPlass Optimum OptimumProofs OptimumTotal Properties_Optimum
  Common Draw Layout LayoutSpec LayoutProofs LayoutText LayoutPages LayoutRoom FontsUsed Document DocumentSpec DocumentProofs Fuel Properties_Words
  Properties_Layout LayoutTotal SuccessProofs.
Open Scope nat_scope.
Local Open Scope list_scope.

Section Rules.
Context {ENV : Env QcNum}.
Local Notation cols_of cs := (fun i => (c_width (cf_box (cs i)), cf_free (cs i))).
(** the column in use is more than full *)
Definition over (h : Qc) (cs : nat -> @colfill QcNum) : Prop :=
  cf_blocks (cs 0) <> [] /\ (cf_free (cs 0%nat) < 0)%Qc /\ forall i, roomy h (cs (S i)) /\ cf_blocks (cs (S i)) = [].
(** the same with no room left *)
Definition full0 (cs : nat -> @colfill QcNum) : nat -> @colfill QcNum :=
  scons (mkCol (cf_box (cs 0)) (cf_blocks (cs 0)) 0%Qc) (sdrop 1 cs).
Lemma full0_roomy h cs : over h cs -> roomy_from h (full0 cs).
Proof.
  intros (B & F & R). split.
  - intros [|i]; cbn [full0 scons sdrop]; [|apply R]. split; [discriminate|]. cbn. congruence.
  - intros i. cbn [full0 scons]. apply R.
Qed.
Lemma floor_neg (a lead : Qc) : (0 < lead)%Qc -> (a < 0)%Qc -> (@nfloordiv QcNum a lead < 0)%Z.
Proof.
  intros L A. destruct (Z_lt_le_dec (@nfloordiv QcNum a lead) 0) as [H|H]; [exact H|]. exfalso.
  change (0 <= Qfloor (this (a / lead)%Qc))%Z in H.
  apply floor_lines in H; [|exact L]. change (Q2Qc (inject_Z 0)) with 0%Qc in H. rewrite Qcmult_0_l in H.
  exact (Qclt_not_le _ _ A H).
Qed.
(** no line is put into such a column, as into one with no room *)
Lemma take_box_over q w (a lead : @num QcNum) ae : (0 < lead)%Qc -> (a < 0)%Qc -> take_box q (w, a) ae lead = Ok (mkFilled q [] q).
Proof.
  intros L A. unfold take_box. replace (@neqb QcNum lead n0) with false by (symmetry; apply Qceqb_neq; intros ->; discriminate L).
  pose proof (floor_neg a lead L A) as F. cbn [snd fst]. unfold max_line_count.
  destruct (nfloordiv a lead) as [|z|z]; [lia|lia|]. destruct q; reflexivity.
Qed.
Lemma take_box_full q w (lead : @num QcNum) : (0 < lead)%Qc -> take_box q (w, 0%Qc) true lead = Ok (mkFilled q [] q).
Proof.
  intros L. unfold take_box. replace (@neqb QcNum lead n0) with false by (symmetry; apply Qceqb_neq; intros ->; discriminate L).
  cbn [snd fst]. unfold max_line_count. assert (E : @nfloordiv QcNum 0%Qc lead = 0%Z).
  { change (Qfloor (this (0 / lead)%Qc) = 0%Z). rewrite Qcdiv_def, Qcmult_0_l. reflexivity. }
  rewrite E. destruct q; reflexivity.
Qed.
Lemma ff_over fuel (ws : list (@wordlike QcNum)) (cs : nat -> colfill) (lead : @num QcNum) av j : (0 < lead)%Qc -> (cf_free (cs 0%nat) < 0)%Qc ->
  ff_shape fuel ws (cols_of cs) true lead av j = ff_shape fuel ws (cols_of (full0 cs)) true lead av j.
Proof.
  intros L F. unfold ff_shape. f_equal. destruct av.
  - unfold shape_orphans. rewrite take_box_over by assumption. cbn [full0 scons cf_free]. rewrite take_box_full by exact L. reflexivity.
  - destruct fuel as [|fuel]; [reflexivity|]. cbn [shape_simple]. rewrite take_box_over by assumption.
    cbn [full0 scons cf_free]. rewrite take_box_full by exact L. reflexivity.
Qed.
Lemma orphan_ne fuel : forall ws ls u (cols : nat -> @num QcNum * @num QcNum) (lead : @num QcNum) r, orphan_loop fuel ws ls u cols lead = Ok r -> r <> [].
Proof.
  induction fuel as [|fuel IH]; cbn [orphan_loop]; intros ws ls u cols lead r E; [discriminate|].
  apply bind_ok in E as (b & _ & E). destruct (b_rest b).
  - apply bind_ok in E as (y & _ & E). apply Ok_inj in E. subst. discriminate.
  - destruct (_ && _ && _)%bool.
    + destruct u; [|discriminate]. apply bind_ok in E as (y & _ & E). destruct (_ =? 1); [apply Ok_inj in E; subst; discriminate|]. eapply IH; eauto.
    + apply Ok_inj in E. subst. discriminate.
Qed.
Lemma ff_full_two fuel (ws : list (@wordlike QcNum)) (cs : nat -> colfill) (lead : @num QcNum) av j out : (0 < lead)%Qc ->
  ff_shape fuel ws (cols_of (full0 cs)) true lead av j = Ok out -> exists a b r, out = a :: b :: r.
Proof.
  intros L. unfold ff_shape. intros E. apply bind_ok in E as (x & E1 & E).
  assert (X : exists a b r, x = a :: b :: r).
  { destruct av.
    - unfold shape_orphans in E1. cbn [full0 scons cf_free] in E1. rewrite take_box_full in E1 by exact L. cbn [bind b_rest b_lines List.length Nat.eqb andb] in E1.
      destruct fuel as [|fuel]; [discriminate|]. cbn [orphan_loop] in E1. apply bind_ok in E1 as (b & _ & E1). destruct (b_rest b).
      + apply bind_ok in E1 as (y & Y & E1). apply Ok_inj in E1. subst.
        apply orphan_ne in Y.
        destruct y as [|y0 y]; [congruence|]. eauto.
      + cbn [Nat.ltb Nat.leb List.length] in E1. rewrite andb_false_r in E1. cbn [andb] in E1. apply Ok_inj in E1. subst. eauto.
    - destruct fuel as [|fuel]; [discriminate|]. cbn [shape_simple] in E1. cbn [full0 scons cf_free] in E1. rewrite take_box_full in E1 by exact L. cbn [bind b_rest b_lines] in E1.
      apply bind_ok in E1 as (y & Y & E1). apply Ok_inj in E1. subst.
      destruct fuel as [|fuel]; [discriminate|]. cbn [shape_simple] in Y. apply bind_ok in Y as (b & _ & Y). destruct (b_rest b).
      + apply bind_ok in Y as (z & _ & Y). apply Ok_inj in Y. subst. eauto.
      + apply Ok_inj in Y. subst. eauto. }
  destruct X as (a & b & r & ->). destruct j; [|apply Ok_inj in E; subst; eauto].
  cbn [mapM] in E. apply bind_ok in E as (y & _ & E). apply bind_ok in E as (z & Z & E). apply Ok_inj in E. subst.
  apply bind_ok in Z as (y2 & _ & Z). apply bind_ok in Z as (z2 & _ & Z). apply Ok_inj in Z. subst. eauto.
Qed.
Lemma para_loop_ne fuel (p : @para QcNum) lead gs : forall cs st out, para_loop fuel p gs cs st lead = Ok out -> out <> [].
Proof.
  induction gs as [|g gs IH]; intros cs st out E; cbn [para_loop] in E; [apply Ok_inj in E; subst; discriminate|].
  apply bind_ok in E as ([[d s] e] & _ & E). destruct (rev d) as [|c l]; [discriminate|]. destruct e.
  - apply bind_ok in E as (o & O & E). apply Ok_inj in E. subst. apply IH in O. destruct o; [congruence|]. destruct (rev l); discriminate.
  - apply Ok_inj in E. subst. destruct (rev l); discriminate.
Qed.
(** the paragraph goes on as if the column were full *)
Lemma para_over h fuel (p : @para QcNum) gs cs st (lead : @num QcNum) : p_optimal p = None -> (0 < lead)%Qc -> over h cs -> gs <> [] ->
  forall out', para_loop fuel p gs (full0 cs) st lead = Ok out' ->
  exists s r, para_loop fuel p gs cs st lead = Ok (cf_add (cs 0) s :: r) /\ out' = cf_add (full0 cs 0) s :: r /\ r <> [].
Proof.
  intros PO L (B & F & _) NE out' E. destruct gs as [|g gs]; [congruence|]. cbn [para_loop] in *.
  apply bind_ok in E as ([[done st'] ex] & FP & E).
  unfold fill_paragraph in *. change (cf_blocks (full0 cs 0)) with (cf_blocks (cs 0)) in FP. destruct (cf_blocks (cs 0)) as [|bl bls] eqn:BE; [congruence|].
  apply bind_ok in FP as ([[cmd ws] ex'] & W & FP). rewrite W. cbn [bind].
  apply bind_ok in FP as (ws' & I & FP). rewrite I. cbn [bind].
  unfold shape in *. rewrite PO in *. rewrite ff_over by assumption.
  destruct (ff_shape fuel ws' (cols_of (full0 cs)) true lead (p_orphans p) (is_justify (p_align p))) as [x|e] eqn:FF; [|discriminate].
  destruct (ff_full_two _ _ _ _ _ _ _ L FF) as (a & b & r & ->). cbn [rmap bind map] in *.
  apply Ok_inj in FP. injection FP as <- <- <-. cbn [add_chunks] in *. change (sdrop 1 (full0 cs)) with (sdrop 1 cs) in E.
  set (s0 := chunk lead (p_align p) (map ff_tline a)) in *. set (t := cf_add (sdrop 1 cs 0) _ :: add_chunks _ _) in *.
  assert (TN : t <> []) by discriminate. set (st2 := states_after _ _) in *. clearbody t st2.
  cbn [rev] in *. destruct (rev t) as [|c t'] eqn:RT.
  { exfalso. apply TN. apply (f_equal (@rev _)) in RT. rewrite rev_involutive in RT. exact RT. }
  cbn [app List.length] in *. change (sdrop (S (List.length t)) (full0 cs)) with (sdrop (S (List.length t)) cs) in E.
  destruct ex'.
  - apply bind_ok in E as (o & O & E). rewrite O. cbn [bind]. apply Ok_inj in E. subst out'.
    exists s0, (rev t' ++ o). rewrite !rev_app_distr. split; [reflexivity|]. split; [reflexivity|].
    destruct o; [|destruct (rev t'); discriminate]. exfalso. exact (para_loop_ne _ _ _ _ _ _ _ O eq_refl).
  - apply Ok_inj in E. subst out'. exists s0, (rev t' ++ [c]). rewrite !rev_app_distr. split; [reflexivity|]. split; [reflexivity|]. destruct (rev t'); discriminate.
Qed.
(** ** Blocks *)
(** what a column after a rule may be *)
Definition any_cols (h width : Qc) (cs : nat -> @colfill QcNum) : Prop :=
  (roomy_from h cs \/ over h cs) /\ (forall i, width <= c_width (cf_box (cs i)))%Qc.
Lemma rule_step h width c m cs : any_cols h width cs ->
  rule_columns c m cs <> [] /\ any_cols h width (next_cols (rule_columns c m cs) cs).
Proof.
  intros (R & W). assert (R' : forall i, roomy h (cs (S i)) /\ cf_blocks (cs (S i)) = []).
  { destruct R as [[R1 R2]|(_ & _ & R)]; [auto|exact R]. }
  unfold rule_columns. set (s := SRule _ _ _ _). set (t := @nadd QcNum (s_top m) (s_bottom m)) in *.
  assert (BN : cf_blocks (cf_add (cs 0) s) <> []) by (cbn; destruct (cf_blocks (cs 0)); discriminate).
  destruct (@nltb QcNum (cf_free (cs 0)) t) eqn:E; cbn [app]; (split; [discriminate|]); unfold next_cols; cbn [List.length Nat.sub Nat.add].
  - change (negb (Qcleb t (cf_free (cs 0))) = true) in E.
    assert (F : (cf_free (cs 0%nat) < t)%Qc).
    { apply Qcnot_le_lt. intros X. apply Qcleb_le in X. rewrite X in E. discriminate. }
    split; [|intros [|i]; cbn [nth]; [apply W|destruct i; apply W]]. right. split; [exact BN|]. split.
    + change (cf_free (cs 0%nat) - t < 0)%Qc. qc.
    + intros i. cbn [nth]. destruct i; cbn [nth]; apply R'.
  - change (negb (Qcleb t (cf_free (cs 0))) = false) in E.
    assert (F : (t <= cf_free (cs 0%nat))%Qc) by (apply Qcleb_le; destruct (Qcleb t _); [reflexivity|discriminate]).
    split; [|intros [|i]; cbn [nth]; [apply W|destruct i; apply W]]. left. split.
    + intros [|i]; cbn [nth]; [|destruct i; apply R']. split; [change (0 <= cf_free (cs 0%nat) - t)%Qc; qc|]. intros X. destruct (BN X).
    + intros i. cbn [nth]. destruct i; apply R'.
Qed.
Lemma any_step h (width : Qc) base p cs : all_split -> glyphs_nonneg -> layable h width base p -> p_optimal p = None -> (0 < width)%Qc -> any_cols h width cs ->
  exists n out, (forall fuel, n <= fuel -> para_columns fuel p base cs = Ok out) /\ out <> [] /\ any_cols h width (next_cols out cs).
Proof.
  intros HY GN LP PO W0 ([R|O] & W).
  - destruct (layable_step h width base p cs HY GN LP W0 (conj R W)) as (n & out & E & NE & (R' & W')).
    exists n, out. split; [exact E|]. split; [exact NE|]. split; [left; exact R'|exact W'].
  - assert (WF : forall i, (width <= c_width (cf_box (full0 cs i)))%Qc) by (intros [|i]; cbn [full0 scons cf_box]; apply W).
    destruct (layable_step h width base p (full0 cs) HY GN LP W0 (conj (full0_roomy h cs O) WF)) as (n & out' & E & NE & (R' & W')).
    unfold para_columns in *. set (gs := splitlines _) in *. change (max_lead _ _) with (para_lead base p) in *. destruct LP as (_ & (L1 & _) & _).
    destruct gs as [|g gs1] eqn:EG.
    + exists 0, [cs 0]. split; [reflexivity|]. split; [discriminate|]. unfold next_cols. cbn [List.length Nat.sub Nat.add].
      assert (EQ : forall i, nth i [cs 0] (cs i) = cs i) by (intros [|[|i]]; reflexivity).
      split; [right|intros i; rewrite EQ; apply W]. destruct O as (O1 & O2 & O3). split; [exact O1|]. split; [exact O2|]. intros i. rewrite EQ. apply O3.
    + destruct (para_over h n p (g :: gs1) cs _ _ PO L1 O ltac:(discriminate) _ (E n (le_n n))) as (s & r & E2 & -> & RN).
      exists n, (cf_add (cs 0) s :: r). split.
      { intros fuel LF. rewrite (para_loop_stable _ _ _ _ _ n fuel LF); [exact E2|]. rewrite E2. discriminate. }
      split; [discriminate|].
      assert (EQ : forall j, next_cols (cf_add (full0 cs 0) s :: r) (full0 cs) j = next_cols (cf_add (cs 0) s :: r) cs j).
      { intros j. unfold next_cols. cbn [List.length]. destruct r as [|r0 r]; [congruence|]. cbn [List.length Nat.sub Nat.add nth]. reflexivity. }
      split; [left; split|]; intros i; rewrite <- EQ; [apply R'|apply R'|apply W'].
Qed.
(** what may come after a rule *)
Definition after_rule (h width : Qc) (base : @full QcNum) (b : @block QcNum) : Prop :=
  match b with
  | BRule _ _ => True
  | BPara p => layable h width base p /\ p_optimal p = None
  end.
Lemma any_blocks h width base blocks : all_split -> glyphs_nonneg -> (0 < width)%Qc -> Forall (after_rule h width base) blocks ->
  forall doc, open_pages doc -> any_cols h width (flat_todo doc) ->
  exists n x, forall fuel, n <= fuel -> auto_loop fuel blocks base doc = Ok x.
Proof.
  intros HY GN W0 A. apply (auto_loop_total (any_cols h width)).
  - intros cs cs' EQ [J1 J3]. split; [|intros i; rewrite <- EQ; apply J3]. destruct J1 as [[J1 J2]|(J1 & J2 & J4)].
    + left. split; intros i; rewrite <- EQ; auto.
    + right. split; [rewrite <- EQ; exact J1|]. split; [rewrite <- EQ; exact J2|]. intros i. rewrite <- EQ. apply J4.
  - eapply Forall_impl; [|exact A]. intros [p|c m] B cs J; cbn [block_columns].
    + destruct B as (LP & PO). apply any_step; auto.
    + exists 0, (rule_columns c m cs). split; [reflexivity|]. apply rule_step, J.
Qed.
Lemma blocks_total h width base ps blocks template pnum : all_split -> glyphs_nonneg -> (0 <= h)%Qc -> (0 < width)%Qc ->
  room_for h template -> wide width template -> Forall (layable h width base) ps -> Forall (after_rule h width base) blocks ->
  exists n x, forall fuel, n <= fuel ->
    auto_loop fuel (map (@BPara QcNum) ps ++ blocks) base (fun i => pf_new (template (pnum + Z.of_nat i)%Z)) = Ok x.
Proof.
  intros HY GN H0 W0 RF WD L A.
  assert (TN : forall i, pg_columns (template i) <> []) by (intros; apply RF).
  pose proof (open_new h width template pnum H0 RF WD) as J.
  assert (O : open_pages (fun i => pf_new (template (pnum + Z.of_nat i)%Z))) by apply (fresh_new template pnum TN).
  revert J O. generalize (fun i : nat => pf_new (template (pnum + Z.of_nat i)%Z)). 
  induction L as [|p ps LP _ IH]; intros doc J O; cbn [map app].
  - apply (any_blocks h width); auto. destruct J as (J1 & J2). split; auto.
  - cbn [auto_loop block_columns]. destruct (layable_step h width base p _ HY GN LP W0 J) as (n1 & out & E1 & NE & JN).
    destruct (fill_loop_spec (S (List.length out)) out doc (Nat.lt_succ_diag_r _) NE O) as (comp & doc' & E2 & _ & _ & FT & O').
    assert (FI : fill_into out doc = Ok (comp, doc')) by (unfold fill_into; destruct out; [congruence|exact E2]).
    destruct (IH doc') as (n2 & y & E3); [|exact O'|].
    { destruct JN as ((J1 & J2) & J3). split; [split|]; intros j; rewrite FT; [apply J1|apply J2|apply J3]. }
    exists (Nat.max n1 n2). eexists. intros fuel LF. rewrite E1 by lia. cbn [bind]. rewrite FI. cbn [bind snd]. rewrite E3 by lia. reflexivity.
Qed.
End Rules.
