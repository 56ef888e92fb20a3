(** * Property C79: on automatic pages, text stays inside its column, in both directions.
    Specifications: LayoutSpec, RenderSpec ([view]: what a reader shows, [items_advance]: how
    far it moves), LineSpec ([one_fragment]); [placed_well] (LayoutInside). *)
From Coq Require Import QArith Qcanon Lqa String.
From Verif Require Import Base Gfmt Num Fonts State Style TextSpec StateProofs Words WordsSpec WordProofs WordOps
  Parse Render RenderSpec RenderProofs Firstfit LineSpec FirstfitProofs WordWidth FirstfitWidth KnuthPlass Optimum OptimumLines
  Show Common Draw DrawSpec TextBlock TextPos Layout LayoutSpec LayoutProofs LayoutText LayoutPages LayoutRoom LayoutInside
  Properties_Style Properties_Words Properties_Text Properties_Firstfit Properties_KnuthPlass Properties_Optimum Properties_Layout.
Local Open Scope list_scope.
Open Scope nat_scope.

(** What is shown for a line, in a column: the baseline is inside, and so is everything
    from the start of the line to where the reader is after showing it. *)
Definition upright (c : @column QcNum) (o : list (@shown QcNum)) : Prop :=
  Forall (fun s => py (c_origin c) <= v_y (sh_v s) /\ v_y (sh_v s) < py (c_origin c) + c_height c)%Qc o.
Definition within {ENV : Env QcNum} (c : @column QcNum) (o : list (@shown QcNum)) : Prop :=
  Forall (fun s => sh_items s <> [] -> px (c_origin c) <= v_x (sh_v s)
    /\ v_x (sh_v s) + items_advance (flat_map sh_items o) <= px (c_origin c) + c_width c)%Qc o.
(** The exceptions: one unbreakable fragment; a line that would fit without the space it
    ends in; and, if [TIGHT], a line without spaces. *)
Definition excused {ENV : Env QcNum} (TIGHT : Prop) (c : @column QcNum) (l : @tline QcNum) : Prop :=
  one_fragment (tl_words l)
  \/ (exists ws w, tl_words l = ws ++ [w] /\ wl_tail w <> None /\ (all_advance (ws ++ [wl_pruned w]) <= c_width c)%Qc)
  \/ (TIGHT /\ ~ (0 < gaps (tl_words l))%Qc).
Definition line_inside {ENV : Env QcNum} (TIGHT : Prop) (c : @column QcNum) (o : list (@shown QcNum)) (l : @tline QcNum) : Prop :=
  flat_map sh_items o = flat_map wl_items (tl_words l)
  /\ upright c o /\ (within c o \/ excused TIGHT c l).

Lemma nth_Forall2 {A B} (R : A -> B -> Prop) l : forall m, List.length l = List.length m ->
  (forall k a b, nth_error l k = Some a -> nth_error m k = Some b -> R a b) -> Forall2 R l m.
Proof.
  induction l as [|a l IH]; intros [|b m] L H; try discriminate; constructor.
  - apply (H 0); reflexivity.
  - apply IH; [injection L; auto|]. intros k x y X Y. apply (H (S k)); assumption.
Qed.
Lemma nlines_le m n : m <= n -> (nlines m <= nlines n)%Qc.
Proof. intros H. unfold nlines, Qcle. rewrite !this_Q2Qc. unfold Qle, inject_Z. cbn. lia. Qed.
Lemma block_shown {ENV : Env QcNum} T (c : @colfill QcNum) b v : (0 <= cf_free c)%Qc -> block_in T c b ->
  exists outs, fst (view v (sh_ops (snd b) (fst b) (c_width (cf_box c)))) = concat outs
    /\ Forall2 (line_inside T (cf_box c)) outs (shape_lines (snd b)).
Proof.
  intros FR (lead & a & ls & E & LP & PX & PT & PB & F). rewrite E. unfold chunk. cbn [sh_ops shape_lines].
  destruct (C56_line_positions ENV (px (fst b)) (py (fst b)) (c_width (cf_box c)) lead (text_pre_state ls) ls a v) as (outs & V & L & H).
  exists outs. split; [exact V|]. apply nth_Forall2; [exact L|]. intros k o l NO NL.
  destruct (H k o l NO NL) as (IT & PO). split; [exact IT|].
  assert (KL : S k <= List.length ls) by (apply nth_error_Some; congruence).
  rewrite Forall_forall in F. specialize (F l (nth_error_In _ _ NL)). split.
  - eapply Forall_impl; [|exact PO]. intros s (_ & Y). rewrite Y. fold (nlines (S k)).
    pose proof (Qcmult_le_compat_r _ _ lead (nlines_le _ _ KL) (Qclt_le_weak _ _ LP)) as B1.
    pose proof (Qcmult_le_compat_r _ _ lead (nlines_le 1 (S k) ltac:(lia)) (Qclt_le_weak _ _ LP)) as B2.
    assert (N1 : (nlines 1 * lead)%Qc = lead) by (change (nlines 1) with 1%Qc; apply Qcmult_1_l).
    rewrite N1 in B2. set (n := (nlines (S k) * lead)%Qc) in *. set (n' := (nlines (List.length ls) * lead)%Qc) in *.
    clearbody n n'. clear -LP PT PB FR B1 B2. split; qc.
  - assert (IA : items_advance (flat_map sh_items o) = all_advance (tl_words l)) by (rewrite IT; apply all_items_advance).
    unfold line_in in F. destruct F as [F|[F|[(F1 & F2)|[F|F]]]].
    + left. rewrite F in IT. unfold within. apply Forall_forall. intros s IS.
      intros NE. exfalso. apply NE. cbn in IT. clear -IT IS. induction o as [|x o IH]; [destruct IS|].
      cbn [flat_map] in IT. apply app_eq_nil in IT as (I1 & I2). destruct IS as [<-|IS]; auto.
    + right; left; exact F.
    + left. unfold within. rewrite IA. eapply Forall_impl; [|exact PO]. intros s (X & _) _. rewrite X.
      set (w := all_advance (tl_words l)) in *. set (W := c_width (cf_box c)) in *. rewrite PX.
      destruct F2 as [F2|[F2|F2]]; [subst a; cbn [line_start]; clearbody w W; split; [apply Qcle_refl|clear -F1; qc]..|].
      rewrite F2. set (x := px (c_origin (cf_box c))). clearbody w W x. clear -F1.
      assert (T : (Q2Qc 2 <> 0)%Qc) by (intros C; discriminate C).
      destruct a; cbn [line_start].
      * split; [apply Qcle_refl|qc].
      * set (d := ((W - w) / Q2Qc 2)%Qc). assert (D : (d * Q2Qc 2 = W - w)%Qc) by (unfold d; rewrite Qcmult_comm; apply Qcmult_div_r; exact T).
        clearbody d. clear T. split; qc.
      * split; qc.
      * split; [apply Qcle_refl|qc].
    + right; right; left; exact F.
    + right; right; right; exact F.
Qed.
Lemma col_shown {ENV : Env QcNum} T (c : @colfill QcNum) v : col_in T c ->
  exists outs, fst (view v (cf_ops c)) = concat outs
    /\ Forall2 (line_inside T (cf_box c)) outs (flat_map shape_lines (col_shapes c)).
Proof.
  intros (F & _ & B). unfold cf_ops, col_shapes. revert v. induction B as [|b bl H _ IH]; intros v; cbn [flat_map map].
  - exists []. split; [reflexivity|constructor].
  - rewrite view_app. cbn [fst]. destruct (block_shown T c b v F H) as (o1 & V1 & F1).
    destruct (IH (snd (view v (sh_ops (snd b) (fst b) (c_width (cf_box c)))))) as (o2 & V2 & F2).
    exists (o1 ++ o2). split; [rewrite V1, V2, concat_app; reflexivity|]. apply Forall2_app; auto.
Qed.

(** ** C79.  Paragraphs (those with optimal line breaks not centred or right-aligned), on
    pages whose columns are all as high as a line.  Whatever a reader saw before a column,
    what it shows for the column is that of its lines, one after another, and every line is
    inside the column, with the exceptions above; the last one only if there are justified
    paragraphs with optimal line breaks. *)
Theorem C79_text_inside_partial : forall (ENV : Env QcNum) fuel ps template base pnum pages (h : Qc),
  (0 <= h)%Qc -> room_for h template ->
  Forall (fun p => fits_lines h base p
    /\ (p_optimal p <> None -> p_align p = ALeft \/ p_align p = AJustify)) ps ->
  auto_pages fuel (map (@BPara QcNum) ps) template base pnum = Ok pages ->
  let TIGHT := exists p, In p ps /\ p_optimal p <> None /\ p_align p = AJustify in
  Forall (fun p => Forall (fun c => forall v, exists outs,
      fst (view v (cf_ops c)) = concat outs
      /\ Forall2 (line_inside TIGHT (cf_box c)) outs (flat_map shape_lines (col_shapes c))) (snd p)) pages.
Proof.
  intros ENV fuel ps template base pnum pages h H0 T B E TI.
  assert (X : Forall (fun p => Forall (fun c => roomy h c /\ col_in TI c) (snd p)) pages).
  2:{ eapply Forall_impl; [|exact X]. intros p Hp. eapply Forall_impl; [|exact Hp]. intros c (_ & Hc) v. apply col_shown, Hc. }
  assert (NW : forall n c, In c (pg_columns (template n)) -> roomy h (cf_new c) /\ col_in TI (cf_new c)).
  { intros n c I. destruct (T n) as (_ & F). rewrite Forall_forall in F. specialize (F c I). split; [split|split; [|split]]; cbn.
    - eapply Qcle_trans; eauto.
    - auto.
    - eapply Qcle_trans; eauto.
    - apply Qcle_refl.
    - constructor. }
  eapply (auto_pages_spec (fun cs => roomy_from h cs /\ forall i, col_in TI (cs i)) (fun c => roomy h c /\ col_in TI c)) in E as (_ & P & _).
  - apply Forall_forall. intros p I. apply In_nth_error in I as (k & N). apply (P k p N).
  - intros cs cs' EQ [[J1 J2] J3]. split; [split|]; intros i; rewrite <- EQ; auto.
  - apply Forall_forall. intros b I. apply in_map_iff in I as (p & <- & I). intros cs out [J1 J2] O. rewrite Forall_forall in B.
    destruct (B p I) as ((L1 & L2) & RP). cbn [block_columns] in O. pose proof (para_only_adds _ _ _ _ _ O) as OA.
    split; [exact OA|]. destruct OA as (NE & added & A).
    assert (RO : Forall (fun c => roomy h c /\ col_in TI c) out).
    { unfold para_columns in O. change (max_lead _ _) with (para_lead base p) in O.
      pose proof (para_roomy h fuel p _ _ cs _ out L1 L2 J1 O) as R1.
      assert (PW : placed_well p) by (unfold placed_well; destruct (p_optimal p); [apply RP; discriminate|exact Logic.I]).
      assert (TP : tight p -> TI) by (intros (X1 & X2); exists p; auto).
      pose proof (para_in TI h fuel p _ _ PW TP cs _ out L1 L2 J1 J2 O) as R2.
      rewrite Forall_forall in R1, R2 |- *. intros c IC. split; [apply R1, IC|apply R2, IC]. }
    split; [exact RO|]. rewrite Forall_forall in RO.
    split; [split; intros j|intros j]; unfold next_cols; set (i := _ + _).
    + destruct (nth_in_or_default i out (cs i)) as [I2| ->]; [|apply J1]. apply RO, I2.
    + rewrite nth_overflow; [|unfold i; lia]. destruct out as [|c0 out]; [congruence|].
      replace i with (S (List.length out + j)) by (unfold i; cbn; lia). apply J1.
    + destruct (nth_in_or_default i out (cs i)) as [I2| ->]; [|apply J2]. apply RO, I2.
  - intros n. apply T.
  - split; [split|].
    + apply (flat_new template pnum (roomy h)); [intros; apply T|intros; eapply NW; eauto].
    + apply (fresh_new template pnum). intros; apply T.
    + apply (flat_new template pnum (col_in TI)); [intros; apply T|intros; eapply NW; eauto].
  - exact NW.
Qed.
Print Assumptions C79_text_inside_partial.

#[local] Existing Instance ex_words.
Definition apar (t : string) (a : align) (optimal : bool) : @para QcNum :=
  @mkPara QcNum [IStr (str_of t)] (@mkStyle QcNum None None None None None None (Some 1%N)) a 0%Qc true (if optimal then Some (1%Qc, ex_params) else None).
Definition ex_aligned : list (@para QcNum) :=
  [apar "one two three four five six" ARight false; apar "seven eight nine ten" ACenter false;
   apar "eleven twelve thirteen" AJustify false; apar "aBcDe fgHi jk" ALeft true; apar "aBcDe fgHi jk" AJustify true].
Example C79_example :
  (0 <= nZ 20)%Qc /\ room_for (nZ 20) ex_template
  /\ Forall (fun p => fits_lines (nZ 20) full_default p
       /\ (p_optimal p <> None -> p_align p = ALeft \/ p_align p = AJustify)) ex_aligned
  /\ is_ok (auto_pages 100 (map (@BPara QcNum) ex_aligned) ex_template full_default 1) = true.
Proof.
  split; [vm_compute; discriminate|]. split; [|split].
  - intros n. unfold ex_template. cbn [pg_columns]. destruct (Z.even n); split; try discriminate;
      repeat (apply Forall_cons || apply Forall_nil); vm_compute; discriminate.
  - repeat (apply Forall_cons || apply Forall_nil); (split; [split; vm_compute; congruence|]); cbn; intros H; auto; congruence.
  - vm_compute. reflexivity.
Qed.
(** The other paragraphs do not stay inside, and the last exception is real.  In a column
    from 10 to 70, with optimal line breaks: the right-aligned first line of "aaa bbbbCccccc
    dd", "aaa bbbb-", ends at 76; and in a justified paragraph the word "aaaaBbbbbCccccccc"
    (102 wide) stands on one line, although it could be hyphenated, as it is with first-fit
    line breaks. *)
Definition shown_on (p : @para QcNum) : list (@shown QcNum) :=
  flat_map (fun c => fst (view v_start (cf_ops c)))
           (flat_map snd (ok_or [] (auto_pages 100 [BPara p] ex_template full_default 1))).
Definition says_at (s : @shown QcNum) : str * Q * Q :=
  (flat_map item_text (sh_items s), this (v_x (sh_v s)), this (v_x (sh_v s) + items_advance (sh_items s))%Qc).
Theorem C79_text_inside_refuted :
  Forall (fun c => this (px (c_origin c)) = 10%Q /\ this (c_width c) = 60%Q) (pg_columns (ex_template 1))
  /\ is_ok (auto_pages 100 [BPara (apar "aaa bbbbCccccc dd" ARight true)] ex_template full_default 1) = true
  /\ map says_at (shown_on (apar "aaa bbbbCccccc dd" ARight true))
     = [(str_of "aaa bbbb-", 22%Q, 76%Q); (str_of "Cccccc dd", 16%Q, 70%Q)]
  /\ is_ok (auto_pages 100 [BPara (apar "aaaaBbbbbCccccccc" AJustify true)] ex_template full_default 1) = true
  /\ map says_at (shown_on (apar "aaaaBbbbbCccccccc" AJustify true))
     = [(str_of "aaaaBbbbbCccccccc", 10%Q, 112%Q)]
  /\ map says_at (shown_on (apar "aaaaBbbbbCccccccc" AJustify false))
     = [(str_of "aaaaBbbbb-", 10%Q, 70%Q); (str_of "Cccccccc", 10%Q, 58%Q)].
Proof. repeat split; try (vm_compute; reflexivity). repeat constructor. Qed.
Print Assumptions C79_text_inside_refuted.
