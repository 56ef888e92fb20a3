(** * LawRules: layout with rules, in any arithmetic with certain laws.
    A rule that does not fit leaves its column more than full; first-fit paragraphs go on in the
    next column.  (LayoutRules is about exact numbers.) *)
From Verif Require Import Base Num NumLaws Fonts State Style TextSpec StateProofs Properties_Style Words WordsSpec WordProofs WordOps Parse Render RenderSpec
  Firstfit LineSpec FirstfitProofs KnuthPlass Optimum OptimumProofs OptimumTotal Properties_Optimum Properties_Words
  Common Draw TextBlock Layout LayoutSpec LayoutProofs LayoutText LayoutPages LayoutLaws FontsUsed Fuel LayoutTotal SuccessProofs Properties_Layout ReaderStd LawTotal.
From Coq Require Import Lia.
Local Open Scope list_scope.
Open Scope nat_scope.
Section LawRules.
Context {NUM : Num} {ENV : Env NUM}.
Local Notation colfill := (@colfill NUM).
Local Notation cols_of cs := (fun i : nat => (c_width (cf_box (cs i)), cf_free (cs i))).
Context (fin : num -> Prop) (LAW : lawful fin).
(** what a rule may leave, and the heights rules may have *)
Context (low mar : num -> Prop) (h H : num).
Hypothesis Fh : fin h.
Hypothesis FH : fin H.
Hypothesis H0h : le n0 h.
Hypothesis H0H : le n0 H.
Hypothesis R_low : forall a, height fin H a -> low a.
Hypothesis R_mar : forall t, mar t -> fin t /\ le n0 t.
Hypothesis R_sub : forall a t, low a -> mar t -> low (nsub a t) /\ (lt a t -> le (nsub a t) n0) /\ (le a n0 -> le (nsub a t) n0).
Hypothesis R_over : forall a lead, low a -> le a n0 -> line_height fin H lead -> (nfloordiv a lead <= 0)%Z.
Hypothesis R_zero : forall lead, line_height fin H lead -> nfloordiv n0 lead = 0%Z.
Definition over (cs : nat -> colfill) : Prop :=
  cf_blocks (cs 0) <> [] /\ low (cf_free (cs 0)) /\ le (cf_free (cs 0)) n0 /\ forall i, ample fin h H (cs (S i)) /\ cf_blocks (cs (S i)) = [].
(** the same with no room left *)
Definition full0 (cs : nat -> colfill) : nat -> colfill := scons (mkCol (cf_box (cs 0)) (cf_blocks (cs 0)) n0) (sdrop 1 cs).
Lemma full0_ample cs : over cs -> ample_from fin h H (full0 cs).
Proof.
  intros (B & F1 & F2 & R). split.
  - intros [|i]; cbn [full0 scons sdrop]; [|apply R]. split; [|cbn; congruence]. cbn [cf_free].
    split; [apply (law_zero _ LAW)|]. split; [apply (law_refl _ LAW), (law_zero _ LAW)|exact H0H].
  - intros i. cbn [full0 scons]. apply R.
Qed.
Lemma take_box_none q w a lead : neqb lead n0 = false -> (nfloordiv a lead <= 0)%Z -> take_box q (w, a) true lead = Ok (mkFilled q [] q).
Proof.
  intros Z F. unfold take_box. rewrite Z. cbn [snd fst]. unfold max_line_count.
  destruct (nfloordiv a lead =? 0)%Z; [destruct q; reflexivity|]. destruct (nfloordiv a lead) as [|z|z]; [destruct q; reflexivity|lia|]. destruct q; reflexivity.
Qed.
Lemma ff_over fuel ws (cs : nat -> colfill) lead av j : line_height fin H lead -> low (cf_free (cs 0)) -> le (cf_free (cs 0)) n0 ->
  ff_shape fuel ws (cols_of cs) true lead av j = ff_shape fuel ws (cols_of (full0 cs)) true lead av j.
Proof.
  intros L F1 F2. assert (N : neqb lead n0 = false) by (destruct L as (A & B & _); apply (law_not_zero _ LAW); assumption).
  assert (Z0 := R_over _ _ F1 F2 L). assert (Z1 : (nfloordiv n0 lead <= 0)%Z) by (rewrite R_zero by exact L; lia).
  unfold ff_shape. f_equal. destruct av.
  - unfold shape_orphans. rewrite take_box_none by assumption. cbn [full0 scons cf_free]. rewrite take_box_none by assumption. reflexivity.
  - destruct fuel as [|fuel]; [reflexivity|]. cbn [shape_simple]. rewrite take_box_none by assumption.
    cbn [full0 scons cf_free]. rewrite take_box_none by assumption. reflexivity.
Qed.
Lemma orphan_some fuel : forall ws ls u (cols : nat -> num * num) lead r, orphan_loop fuel ws ls u cols lead = Ok r -> r <> [].
Proof.
  induction fuel as [|fuel IH]; cbn [orphan_loop]; intros ws ls u cols lead r E; [discriminate|].
  apply bind_ok in E as (b & _ & E). destruct (b_rest b).
  - apply bind_ok in E as (y & _ & E). apply Ok_inj in E. subst. discriminate.
  - destruct (_ && _ && _)%bool.
    + destruct u; [|discriminate]. apply bind_ok in E as (y & _ & E). destruct (_ =? 1); [apply Ok_inj in E; subst; discriminate|]. eapply IH; eauto.
    + apply Ok_inj in E. subst. discriminate.
Qed.
Lemma ff_full_two fuel ws (cs : nat -> colfill) lead av j out : line_height fin H lead ->
  ff_shape fuel ws (cols_of (full0 cs)) true lead av j = Ok out -> exists a b r, out = a :: b :: r.
Proof.
  intros L. assert (N : neqb lead n0 = false) by (destruct L as (A & B & _); apply (law_not_zero _ LAW); assumption).
  assert (Z1 : (nfloordiv n0 lead <= 0)%Z) by (rewrite R_zero by exact L; lia).
  unfold ff_shape. intros E. apply bind_ok in E as (x & E1 & E).
  assert (X : exists a b r, x = a :: b :: r).
  { destruct av.
    - unfold shape_orphans in E1. cbn [full0 scons cf_free] in E1. rewrite take_box_none in E1 by assumption. cbn [bind b_rest b_lines List.length Nat.eqb andb] in E1.
      destruct fuel as [|fuel]; [discriminate|]. cbn [orphan_loop] in E1. apply bind_ok in E1 as (b & _ & E1). destruct (b_rest b).
      + apply bind_ok in E1 as (y & Y & E1). apply Ok_inj in E1. subst.
        apply orphan_some in Y. destruct y as [|y0 y]; [congruence|]. eauto.
      + cbn [Nat.ltb Nat.leb List.length] in E1. rewrite andb_false_r in E1. cbn [andb] in E1. apply Ok_inj in E1. subst. eauto.
    - destruct fuel as [|fuel]; [discriminate|]. cbn [shape_simple] in E1. cbn [full0 scons cf_free] in E1. rewrite take_box_none in E1 by assumption. cbn [bind b_rest b_lines] in E1.
      apply bind_ok in E1 as (y & Y & E1). apply Ok_inj in E1. subst.
      destruct fuel as [|fuel]; [discriminate|]. cbn [shape_simple] in Y. apply bind_ok in Y as (b & _ & Y). destruct (b_rest b).
      + apply bind_ok in Y as (z & _ & Y). apply Ok_inj in Y. subst. eauto.
      + apply Ok_inj in Y. subst. eauto. }
  destruct X as (a & b & r & ->). destruct j; [|apply Ok_inj in E; subst; eauto].
  cbn [mapM] in E. apply bind_ok in E as (y & _ & E). apply bind_ok in E as (z & Z & E). apply Ok_inj in E. subst.
  apply bind_ok in Z as (y2 & _ & Z). apply bind_ok in Z as (z2 & _ & Z). apply Ok_inj in Z. subst. eauto.
Qed.
Lemma para_loop_some fuel (p : para) lead gs : forall cs st out, para_loop fuel p gs cs st lead = Ok out -> out <> [].
Proof.
  induction gs as [|g gs IH]; intros cs st out E; cbn [para_loop] in E; [apply Ok_inj in E; subst; discriminate|].
  apply bind_ok in E as ([[d s] e] & _ & E). destruct (rev d) as [|c l]; [discriminate|]. destruct e.
  - apply bind_ok in E as (o & O & E). apply Ok_inj in E. subst. apply IH in O. destruct o; [congruence|]. destruct (rev l); discriminate.
  - apply Ok_inj in E. subst. destruct (rev l); discriminate.
Qed.
(** the paragraph goes on as if the column were full *)
Lemma para_over fuel (p : para) gs cs st lead : p_optimal p = None -> line_height fin H lead -> over cs -> gs <> [] ->
  forall out', para_loop fuel p gs (full0 cs) st lead = Ok out' ->
  exists s r, para_loop fuel p gs cs st lead = Ok (cf_add (cs 0) s :: r) /\ out' = cf_add (full0 cs 0) s :: r /\ r <> [].
Proof.
  intros PO L (B & F1 & F2 & _) NE out' E. destruct gs as [|g gs]; [congruence|]. cbn [para_loop] in *.
  apply bind_ok in E as ([[done st'] ex] & FP & E).
  unfold fill_paragraph in *. change (cf_blocks (full0 cs 0)) with (cf_blocks (cs 0)) in FP. destruct (cf_blocks (cs 0)) as [|bl bls] eqn:BE; [congruence|].
  apply bind_ok in FP as ([[cmd ws] ex'] & W & FP). rewrite W. cbn [bind].
  apply bind_ok in FP as (ws' & I & FP). rewrite I. cbn [bind].
  unfold shape in *. rewrite PO in *. rewrite ff_over by assumption.
  destruct (ff_shape fuel ws' (cols_of (full0 cs)) true lead (p_orphans p) (is_justify (p_align p))) as [x|e] eqn:FF; [|discriminate].
  destruct (ff_full_two _ _ _ _ _ _ _ L FF) as (a & b & r & ->). cbn [rmap bind map] in *.
  apply Ok_inj in FP. injection FP as <- <- <-. cbn [add_chunks] in *. change (sdrop 1 (full0 cs)) with (sdrop 1 cs) in E.
  set (s0 := chunk lead (p_align p) (map ff_tline a)) in *. set (t := cf_add (sdrop 1 cs 0) _ :: add_chunks _ _) in *.
  assert (TN : t <> []) by discriminate. set (st2 := states_after _ _) in *. clearbody t st2.
  cbn [rev] in *. destruct (rev t) as [|c t'] eqn:RT.
  { exfalso. apply TN. apply (f_equal (@rev _)) in RT. rewrite rev_involutive in RT. exact RT. }
  cbn [app List.length] in *. change (sdrop (S (List.length t)) (full0 cs)) with (sdrop (S (List.length t)) cs) in E.
  destruct ex'.
  - apply bind_ok in E as (o & O & E). rewrite O. cbn [bind]. apply Ok_inj in E. subst out'.
    exists s0, (rev t' ++ o). rewrite !rev_app_distr. split; [reflexivity|]. split; [reflexivity|].
    destruct o; [|destruct (rev t'); discriminate]. exfalso. exact (para_loop_some _ _ _ _ _ _ _ O eq_refl).
  - apply Ok_inj in E. subst out'. exists s0, (rev t' ++ [c]). rewrite !rev_app_distr. split; [reflexivity|]. split; [reflexivity|]. destruct (rev t'); discriminate.
Qed.
(** ** Blocks *)
Variable R : num -> tline -> Prop.
Variable F : font -> num -> Prop.
Variable A : para -> list passage -> Prop.
Variable D : column -> Prop.
Hypothesis HY : all_split.
Hypothesis FNZ : forall f z, F f z -> neqb z n0 = false.
Definition any_cols (cs : nat -> colfill) : Prop := (ample_from fin h H cs \/ over cs) /\ (forall i, D (cf_box (cs i))).
Lemma rule_step c m cs : mar (nadd (s_top m) (s_bottom m)) -> any_cols cs ->
  rule_columns c m cs <> [] /\ any_cols (next_cols (rule_columns c m cs) cs).
Proof.
  intros MA (RR & W). assert (R' : forall i, ample fin h H (cs (S i)) /\ cf_blocks (cs (S i)) = []).
  { destruct RR as [[R1 R2]|(_ & _ & _ & RR)]; [auto|exact RR]. }
  assert (LO : low (cf_free (cs 0))) by (destruct RR as [[R1 _]|(_ & RR & _)]; [apply R_low, R1|exact RR]).
  unfold rule_columns. set (s := SRule _ _ _ _). set (t := nadd (s_top m) (s_bottom m)) in *.
  destruct (R_mar t MA) as (T1 & T2). destruct (R_sub _ t LO MA) as (S1 & S2 & S3).
  assert (BN : cf_blocks (cf_add (cs 0) s) <> []) by (cbn; destruct (cf_blocks (cs 0)); discriminate).
  destruct (nltb (cf_free (cs 0)) t) eqn:E; cbn [app]; (split; [discriminate|]); unfold next_cols; cbn [List.length Nat.sub Nat.add].
  - split; [|intros [|i]; cbn [nth]; [apply W|destruct i; apply W]]. right. split; [exact BN|]. split; [exact S1|]. split; [apply S2, E|].
    intros i. cbn [nth]. destruct i; cbn [nth]; apply R'.
  - split; [|intros [|i]; cbn [nth]; [apply W|destruct i; apply W]]. destruct RR as [[R1 R2]|(_ & _ & R3 & _)].
    + left. split; [|intros i; cbn [nth]; destruct i; apply R'].
      intros [|i]; cbn [nth]; [|destruct i; apply R']. destruct (R1 0) as ((C1 & C2 & C3) & _).
      assert (LT : le t (cf_free (cs 0))).
      { destruct (nleb t (cf_free (cs 0))) eqn:Y; [exact Y|]. exfalso. assert (X : lt (cf_free (cs 0)) t); [|unfold lt in X; congruence].
        apply (law_lt _ LAW); auto. unfold le. congruence. }
      destruct (law_sub _ LAW _ _ C1 T1 T2 LT) as (Q1 & Q2 & Q3). split; [|intros X; destruct (BN X)].
      split; [exact Q1|]. split; [exact Q2|]. eapply (law_trans _ LAW); [exact Q1|exact C1|exact FH|exact Q3|exact C3].
    + right. split; [exact BN|]. split; [exact S1|]. split; [apply S3, R3|]. intros i. cbn [nth]. destruct i; apply R'.
Qed.
Notation open_cols := (open_cols fin R D h H).
(** the columns after a paragraph *)
Lemma next_D base p fuel cs out : (forall i, D (cf_box (cs i))) -> para_columns fuel p base cs = Ok out ->
  Forall (fun c => D (cf_box c)) out /\ forall i, D (cf_box (next_cols out cs i)).
Proof.
  intros J2 O. destruct (para_only_adds _ _ _ _ _ O) as (NE & added & A0).
  assert (BX : forall c, In c out -> D (cf_box c)).
  { intros c I. red in A0. rewrite A0 in I. apply in_map_iff in I as (k & <- & _).
    replace (cf_box (fold_left cf_add (nth k added []) (cs k))) with (cf_box (cs k)); [apply J2|].
    generalize (cs k). induction (nth k added []) as [|x l IH]; intros c; cbn [fold_left]; [reflexivity|]. rewrite <- IH. reflexivity. }
  split; [apply Forall_forall; exact BX|]. intros j. unfold next_cols. set (i := _ + _).
  destruct (nth_in_or_default i out (cs i)) as [I2| ->]; [|apply J2]. apply BX, I2.
Qed.
Lemma next_ample base p fuel cs out : fit_lines fin h H (para_lead base p) -> ample_from fin h H cs -> para_columns fuel p base cs = Ok out ->
  ample_from fin h H (next_cols out cs).
Proof.
  intros L J1 O. destruct (para_only_adds _ _ _ _ _ O) as (NE & _). assert (O' := O). unfold para_columns in O'. change (max_lead _ _) with (para_lead base p) in O'.
  assert (RO := para_ample fin LAW h H fuel p _ _ cs _ out Fh FH L J1 O'). rewrite Forall_forall in RO.
  split; intros j; unfold next_cols; set (i := _ + _).
  - destruct (nth_in_or_default i out (cs i)) as [I2| ->]; [|apply J1]. apply RO, I2.
  - rewrite nth_overflow; [|unfold i; lia]. destruct out as [|c0 out]; [congruence|].
    replace i with (S (List.length out + j)) by (unfold i; cbn; lia). apply J1.
Qed.
Definition can_fill (base : full) (p : para) : Prop :=
  types_in F base (ISpan (p_style p) (p_content p)) /\ fit_lines fin h H (para_lead base p)
  /\ Forall (A p) (splitlines (flatten (full_or base (p_style p)) (p_style p) (p_content p)))
  /\ breaks fin F (A p) D H p (para_lead base p) /\ p_optimal p = None.
Lemma para_fills base p cs : can_fill base p -> ample_from fin h H cs -> (forall i, D (cf_box (cs i))) ->
  exists n out, forall fuel, n <= fuel -> para_columns fuel p base cs = Ok out.
Proof.
  intros (T & L & GA & BW & _) J1 J2. unfold para_columns. change (max_lead _ _) with (para_lead base p).
  apply (para_total_law fin LAW F (A p) D h H); auto.
  - apply splitlines_in, flatten_types; [apply T|]. apply types_twice, T.
  - apply T.
Qed.
Lemma any_step base p cs : can_fill base p -> any_cols cs ->
  exists n out, (forall fuel, n <= fuel -> para_columns fuel p base cs = Ok out) /\ out <> [] /\ any_cols (next_cols out cs).
Proof.
  intros CF ([RR|O] & W).
  - destruct (para_fills base p cs CF RR W) as (n & out & E). exists n, out. split; [exact E|].
    assert (E0 := E n (le_n n)). split; [apply (para_only_adds _ _ _ _ _ E0)|]. split; [left; eapply next_ample; [apply CF|exact RR|exact E0]|eapply next_D; eauto].
  - assert (WF : forall i, D (cf_box (full0 cs i))) by (intros [|i]; cbn [full0 scons cf_box]; apply W).
    destruct (para_fills base p (full0 cs) CF (full0_ample cs O) WF) as (n & out' & E).
    assert (AN := next_ample base p n _ _ (proj1 (proj2 CF)) (full0_ample cs O) (E n (le_n n))).
    assert (DN := proj2 (next_D base p n _ _ WF (E n (le_n n)))).
    unfold para_columns in *. set (gs := splitlines _) in *. change (max_lead _ _) with (para_lead base p) in *. destruct CF as (_ & (L1 & _) & _ & _ & PO).
    destruct gs as [|g gs1] eqn:EG.
    + exists 0, [cs 0]. split; [reflexivity|]. split; [discriminate|]. unfold next_cols. cbn [List.length Nat.sub Nat.add].
      assert (EQ : forall i, nth i [cs 0] (cs i) = cs i) by (intros [|[|i]]; reflexivity).
      split; [right|intros i; rewrite EQ; apply W]. destruct O as (O1 & O2 & O3 & O4). split; [exact O1|]. split; [exact O2|]. split; [exact O3|]. intros i. rewrite EQ. apply O4.
    + destruct (para_over n p (g :: gs1) cs _ _ PO L1 O ltac:(discriminate) _ (E n (le_n n))) as (s & r & E2 & -> & RN).
      exists n, (cf_add (cs 0) s :: r). split.
      { intros fuel LF. rewrite (para_loop_stable _ _ _ _ _ n fuel LF); [exact E2|]. rewrite E2. discriminate. }
      split; [discriminate|].
      assert (EQ : forall j, next_cols (cf_add (full0 cs 0) s :: r) (full0 cs) j = next_cols (cf_add (cs 0) s :: r) cs j).
      { intros j. unfold next_cols. cbn [List.length]. destruct r as [|r0 r]; [congruence|]. cbn [List.length Nat.sub Nat.add nth]. reflexivity. }
      split; [left; split|]; intros i; rewrite <- EQ; [apply AN|apply AN|apply DN].
Qed.
Definition can_block (base : full) (b : block) : Prop :=
  match b with
  | BRule _ m => mar (nadd (s_top m) (s_bottom m))
  | BPara p => can_fill base p
  end.
Lemma blocks_loop base blocks : Forall (can_block base) blocks -> forall doc, open_pages doc -> any_cols (flat_todo doc) ->
  exists n x, forall fuel, n <= fuel -> auto_loop fuel blocks base doc = Ok x.
Proof.
  intros B. induction B as [|b r HB _ IH]; intros doc O JD; cbn [auto_loop]; [exists 0; eauto|].
  assert (ST : exists n out, (forall fuel, n <= fuel -> block_columns fuel b base (flat_todo doc) = Ok out) /\ out <> [] /\ any_cols (next_cols out (flat_todo doc))).
  { destruct b as [p|c m]; cbn [can_block block_columns] in *; [apply any_step; assumption|].
    exists 0, (rule_columns c m (flat_todo doc)). split; [reflexivity|]. apply rule_step; assumption. }
  destruct ST as (n1 & out & E1 & NE & JN).
  destruct (fill_loop_spec (S (List.length out)) out doc (Nat.lt_succ_diag_r _) NE O) as (comp & doc' & E2 & _ & _ & FT & O').
  assert (FI : fill_into out doc = Ok (comp, doc')) by (unfold fill_into; destruct out; [congruence|exact E2]).
  destruct (IH doc' O') as (n2 & y & E3).
  { destruct JN as (J1 & J2). split; [|intros i; rewrite FT; apply J2]. destruct J1 as [[J1 J3]|(J1 & J3 & J4 & J5)].
    - left. split; intros i; rewrite FT; [apply J1|apply J3].
    - right. split; [rewrite FT; exact J1|]. split; [rewrite FT; exact J3|]. split; [rewrite FT; exact J4|]. intros i. rewrite FT. apply J5. }
  exists (Nat.max n1 n2). eexists. intros fuel L. rewrite E1 by lia. cbn [bind]. rewrite FI. cbn [bind snd]. rewrite E3 by lia. reflexivity.
Qed.
Lemma loop_found base blocks template pnum : template_ok fin D h H template -> Forall (can_block base) blocks ->
  exists n x, forall fuel, n <= fuel -> auto_loop fuel blocks base (fun i => pf_new (template (pnum + Z.of_nat i)%Z)) = Ok x.
Proof.
  intros T B. destruct (open_start fin LAW R D h H template pnum Fh FH H0h T) as ((J1 & J2 & _) & NW).
  apply blocks_loop; [exact B| |split; [left; exact J1|exact J2]].
  apply (fresh_new template pnum). intros i. apply T.
Qed.
Lemma pages_found base blocks template pnum : template_ok fin D h H template -> Forall (can_block base) blocks ->
  exists n pages, forall fuel, n <= fuel -> auto_pages fuel blocks template base pnum = Ok pages.
Proof.
  intros T B. destruct (loop_found base blocks template pnum T B) as (n & x & E).
  exists n. eexists. intros fuel L. unfold auto_pages. rewrite (E fuel L). cbn [bind]. reflexivity.
Qed.
(** the lines *)
Definition lays_block (base : full) (b : block) : Prop := match b with BRule _ _ => True | BPara p => lays R F (A p) D p (para_lead base p) end.
Lemma pages_lines fuel base blocks template pnum pages : D (cf_box no_col) -> template_ok fin D h H template ->
  Forall (can_block base) blocks -> Forall (lays_block base) blocks ->
  auto_pages fuel blocks template base pnum = Ok pages -> Forall (fun p => Forall (lines_fit R) (snd p)) pages.
Proof.
  intros DN T B LB E.
  assert (X : Forall (fun p => Forall (fun c => lines_fit R c /\ D (cf_box c)) (snd p)) pages).
  { eapply (auto_pages_all (fun c => lines_fit R c /\ D (cf_box c))); [| | |exact E].
    - split; [constructor|exact DN].
    - apply Forall_forall. intros b IB cs out C O. rewrite Forall_forall in B, LB. specialize (B b IB). specialize (LB b IB).
      assert (J2 : forall i, D (cf_box (cs i))) by (intros i; apply C). assert (J3 : forall i, lines_fit R (cs i)) by (intros i; apply C).
      destruct b as [p|c m]; cbn [block_columns can_block lays_block] in *.
      + apply Forall_and; [|apply (next_D _ _ _ _ _ J2 O)]. destruct B as (TY & L & GA & _ & _).
        unfold para_columns in O. change (max_lead _ _) with (para_lead base p) in O.
        eapply (para_fit R F (A p) D fuel p _ _ LB cs _ out GA); [|apply TY|exact J2|exact J3|exact O].
        apply splitlines_in, flatten_types; [apply TY|]. apply types_twice, TY.
      + apply Ok_inj in O. subst out. unfold rule_columns. apply Forall_app. split.
        * destruct (nltb _ _); constructor; [apply C|constructor].
        * constructor; [|constructor]. split; [|apply J2]. unfold lines_fit, col_shapes, cf_add. cbn [cf_blocks cf_box]. rewrite map_app. apply Forall_app.
          split; [apply J3|]. constructor; [constructor|constructor].
    - intros i c I. destruct (open_start fin LAW R D h H template pnum Fh FH H0h T) as (_ & NW). split; [apply (NW i c I)|].
      destruct (T i) as (_ & FC). rewrite Forall_forall in FC. apply (FC c I). }
  eapply Forall_impl; [|exact X]. intros p. apply Forall_impl. tauto.
Qed.
End LawRules.
