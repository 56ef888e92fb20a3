(** * LawTotal: laying out whole pages of paragraphs, in any lawful arithmetic. *)
From Coq Require Import ZArith Bool.
From Verif Require Import Base Num NumLaws Fonts State Style TextSpec StateProofs Properties_Style Words WordsSpec WordProofs WordOps Parse Render RenderSpec
  Firstfit LineSpec FirstfitProofs KnuthPlass Optimum OptimumProofs OptimumTotal Properties_Optimum Properties_Words
  Common Draw TextBlock Layout LayoutSpec LayoutProofs LayoutText LayoutPages LayoutLaws FontsUsed Fuel LayoutTotal SuccessProofs Properties_Layout.
From Coq Require Import Lia.
Local Open Scope list_scope.
Open Scope nat_scope.
Section LawTotal.
Context {NUM : Num} {ENV : Env NUM}.
Local Notation colfill := (@colfill NUM).
Local Notation cols_of cs := (fun i : nat => (c_width (cf_box (cs i)), cf_free (cs i))).
(** ** indents and stretched spaces: sizes are not zero *)
Section Sizes.
Variable F : font -> num -> Prop.
Hypothesis FNZ : forall f z, F f z -> neqb z n0 = false.
Lemma slug_indent_ok s x : slug_in F s -> slug_has_init_kern s = false -> exists s', slug_indent s x = Ok s'.
Proof.
  intros [P _] C. unfold slug_indent. destruct (ntruthy x); [|eauto]. rewrite C. unfold pdiv. rewrite (FNZ _ _ P). cbn. eauto.
Qed.
Lemma box_indent_ok b x : box_in F b -> clear_box b -> exists b', box_indent b x = Ok b'.
Proof.
  destruct b as [s|[|[s c] l] st]; cbn [box_in clear_box box_indent]; intros P C.
  - destruct (slug_indent_ok s x P C) as (s' & ->). cbn. eauto.
  - destruct (ntruthy x); eauto.
  - destruct (ntruthy x); [|eauto]. destruct P as [P _]. inversion P as [|? ? P1 _]; subst.
    destruct (slug_indent_ok s x (proj1 P1) C) as (s' & ->). cbn. eauto.
Qed.
Lemma wl_indent_ok w x : wl_in F w -> has_text w -> clear w -> exists w', wl_indent w x = Ok w'.
Proof.
  induction w as [b|[bl t st]|w IH c]; cbn [wl_in clear wl_indent]; intros P T C.
  - destruct (box_indent_ok b x P C) as (b' & ->). cbn. eauto.
  - destruct P as [P S]. unfold word_indent. destruct (ntruthy x); [|cbn; eauto]. cbn [w_boxes w_tail w_state] in *.
    destruct bl as [|b bl].
    + destruct t as [t|]; [|destruct T as [T|T]; exfalso; apply T; reflexivity].
      unfold tspace_stretch, pdiv. rewrite (FNZ _ _ S). cbn. eauto.
    + inversion P; subst. destruct (box_indent_ok b x) as (b' & ->); auto. cbn. eauto.
  - destruct P as [P Q]. destruct (ntruthy x); [|eauto]. destruct IH as (w' & ->); auto. cbn. eauto.
Qed.
Lemma indent_first_ok ps st cmd ws ex x : all_split -> into_words ps st = Ok (cmd, ws, ex) -> wls_in F ws ->
  exists ws', indent_first ws x = Ok ws'.
Proof.
  intros HY E P. destruct ws as [|w r]; cbn [indent_first]; [eauto|]. pose proof (into_words_clear _ _ _ _ _ E) as C.
  assert (T := pw_has_text _ HY (pw_parsed _ _ _ _ _ E)). inversion P; subst. inversion T; subst.
  destruct (wl_indent_ok w x) as (w' & ->); auto. cbn. eauto.
Qed.
Lemma extend_ok w : wl_in F w -> forall x, exists w', wl_extend_tail w x = Ok w'.
Proof.
  induction w as [b|[bl t st]|w IH c]; cbn [wl_in wl_extend_tail]; intros P x.
  - eauto.
  - destruct P as [_ S]. unfold word_extend_tail. cbn [w_tail w_state w_boxes] in *. destruct t as [t|]; [|cbn; eauto].
    destruct (ntruthy x); [|cbn; eauto]. unfold tspace_stretch, pdiv. rewrite (FNZ _ _ S). cbn. eauto.
  - destruct P as [P _]. destruct (wl_tail w); [|eauto]. destruct (ntruthy x); [|eauto]. destruct (IH P x) as (w' & ->). cbn. eauto.
Qed.
Lemma justify_ok l : wls_in F (l_words l) -> exists l', justify l = Ok l'.
Proof.
  intros P. unfold justify. destruct (pdiv _ _) as [per|er]; [|eauto].
  destruct (mapM_total (fun w => wl_extend_tail w (nmul per (st_size (wl_state w)))) (l_words l)) as (r & ->).
  - eapply Forall_impl; [|exact P]. intros w H. apply extend_ok, H.
  - cbn. eauto.
Qed.
End Sizes.
Lemma ff_some fuel (ws : list wordlike) cols ae lead av j cs : ff_shape fuel ws cols ae lead av j = Ok cs -> cs <> [].
Proof.
  unfold ff_shape. intros E. apply bind_ok in E as (x & E1 & E).
  assert (X : x <> []).
  { assert (OL : forall fuel ws ls u (cols : nat -> num * num) (lead : num) r, orphan_loop fuel ws ls u cols lead = Ok r -> r <> []).
    { clear. induction fuel as [|fuel IH]; cbn [orphan_loop]; intros ws ls u cols lead r E; [discriminate|].
      apply bind_ok in E as (b & _ & E). destruct (b_rest b).
      - apply bind_ok in E as (y & _ & E). apply Ok_inj in E. subst. discriminate.
      - destruct (_ && _ && _).
        + destruct u; [|discriminate]. apply bind_ok in E as (y & _ & E). destruct (_ =? 1); [apply Ok_inj in E; subst; discriminate|]. eapply IH; eauto.
        + apply Ok_inj in E. subst. discriminate. }
    destruct av.
    - unfold shape_orphans in E1. apply bind_ok in E1 as (b & _ & E1). destruct (b_rest b).
      + destruct (_ && _); eapply OL; eauto.
      + apply Ok_inj in E1. subst. discriminate.
    - destruct fuel; cbn [shape_simple] in E1; [discriminate|]. apply bind_ok in E1 as (b & _ & E1). destruct (b_rest b).
      + apply bind_ok in E1 as (y & _ & E1). apply Ok_inj in E1. subst. discriminate.
      + apply Ok_inj in E1. subst. discriminate. }
  destruct j; [|apply Ok_inj in E; subst; exact X].
  destruct x as [|c x]; [congruence|]. cbn [mapM] in E. apply bind_ok in E as (y & _ & E). apply bind_ok in E as (z & _ & E). apply Ok_inj in E. subst. discriminate.
Qed.

(** ** a paragraph *)
Context (fin : num -> Prop) (LAW : lawful fin).
(** what is asked of the line breaker *)
Definition breaks (F : font -> num -> Prop) (A : list passage -> Prop) (D : column -> Prop) (H : num) (p : para) (lead : num) : Prop :=
  forall g st cmd ws ex ws' (cs : nat -> colfill) (ae : bool), A g -> psg_in F g -> st_in F st ->
    into_words g st = Ok (cmd, ws, ex) -> indent_first ws (p_indent p) = Ok ws' -> wls_in F ws' ->
    (forall i, height fin H (cf_free (cs i))) -> (forall i, D (cf_box (cs i))) ->
    exists n, forall fuel, n <= fuel -> exists chunks, shape fuel p ws' (cols_of cs) ae lead = Ok chunks /\ chunks <> [].
Lemma chunks_box (cs : nat -> colfill) l c r : rev (add_chunks cs l) = c :: r -> exists i s, c = cf_add (cs i) s.
Proof.
  intros E. assert (I : In c (add_chunks cs l)) by (apply in_rev; rewrite E; left; reflexivity).
  apply In_nth_error in I as (i & N). apply law_chunks_nth in N as (s & _ & ->). eauto.
Qed.
Lemma chunks_length (l : list shaped) : forall cs : nat -> colfill, List.length (add_chunks cs l) = List.length l.
Proof. induction l as [|s l IH]; intros cs; cbn [add_chunks List.length]; [reflexivity|]. rewrite IH. reflexivity. Qed.
Lemma para_total_law (F : font -> num -> Prop) A D h H p lead : all_split -> (forall f z, F f z -> neqb z n0 = false) ->
  breaks F A D H p lead -> fin h -> fin H -> fit_lines fin h H lead ->
  forall gs cs st, Forall A gs -> Forall (psg_in F) gs -> st_in F st -> ample_from fin h H cs -> (forall i, D (cf_box (cs i))) ->
  exists n out, forall fuel, n <= fuel -> para_loop fuel p gs cs st lead = Ok out.
Proof.
  intros HY FNZ BW Fh FH FL. induction gs as [|g gs IH]; intros cs st GA G S R DC; cbn [para_loop]; [exists 0; eauto|].
  inversion G as [|? ? G1 G2]; subst. inversion GA as [|? ? A1 A2]; subst.
  destruct (C24_words_total NUM ENV g st HY) as (cmd & ws & ex & W).
  pose proof (into_words_in F _ _ _ G1 S W) as [CI WI]. cbn [fst snd] in CI, WI.
  destruct (indent_first_ok F FNZ g st cmd ws ex (p_indent p) HY W WI) as (ws' & I).
  pose proof (indent_first_in F _ _ _ WI I) as WI'.
  set (ae := match cf_blocks (cs 0) with [] => false | _ => true end).
  destruct (stable_from (fun n => shape n p ws' (cols_of cs) ae lead) (fun c => c <> [])) as (n1 & chunks & NE & SH).
  { apply shape_stable. }
  { eapply BW; eauto. intros i. apply R. }
  assert (FP : forall fuel, n1 <= fuel -> fill_paragraph fuel p g cs st lead
     = Ok (add_chunks cs (map (chunk lead (p_align p)) chunks), states_after chunks (apply cmd st), ex)).
  { intros fuel L. unfold fill_paragraph. rewrite W. cbn [bind]. rewrite I. cbn [bind].
    fold ae. rewrite SH by exact L. reflexivity. }
  destruct (ample_shape fin LAW h H n1 p lead cs ws' chunks Fh FH FL R (SH n1 (le_n _))) as (_ & RC).
  assert (ST : st_in F (states_after chunks (apply cmd st))).
  { apply states_after_in; [apply apply_in; assumption|]. eapply shape_chunks_in; [exact WI'|exact (SH n1 (le_n _))]. }
  set (done := add_chunks cs (map (chunk lead (p_align p)) chunks)) in *.
  assert (LD : List.length done = List.length chunks) by (unfold done; rewrite chunks_length, map_length; reflexivity).
  destruct (rev done) as [|col filled] eqn:RV.
  { exfalso. apply NE. apply (f_equal (@List.length _)) in RV. rewrite rev_length, LD in RV. destruct chunks; [reflexivity|discriminate]. }
  destruct ex.
  2:{ exists n1, (rev filled ++ [col]). intros fuel L. rewrite (FP fuel L). cbn [bind]. rewrite RV. reflexivity. }
  assert (CR : ample fin h H col).
  { assert (IC : In col done) by (apply in_rev; rewrite RV; left; reflexivity). apply In_nth_error in IC as (i & N).
    apply law_chunks_nth in N as (s & N & ->). rewrite nth_error_map in N. destruct (nth_error chunks i) as [ls|] eqn:NE'; [|discriminate].
    injection N as <-. apply RC, NE'. }
  assert (DB : D (cf_box col)). { destruct (chunks_box _ _ _ _ RV) as (i & s & ->). cbn [cf_add cf_box]. apply DC. }
  destruct (IH (scons col (sdrop (List.length done) cs)) (states_after chunks (apply cmd st)) A2 G2 ST) as (n2 & out & H2).
  - apply ample_next; auto. rewrite LD. destruct chunks; [congruence|cbn; lia].
  - intros [|i]; cbn [scons]; [exact DB|apply DC].
  - exists (Nat.max n1 n2), (rev filled ++ out). intros fuel L. rewrite FP by lia. cbn [bind]. rewrite RV.
    rewrite H2 by lia. reflexivity.
Qed.
(** ** the lines in the columns *)
Variable R : num -> tline -> Prop.
Definition lines_fit (c : colfill) : Prop := Forall (fun s => Forall (R (c_width (cf_box c))) (shape_lines s)) (col_shapes c).
Definition lays (F : font -> num -> Prop) (A : list passage -> Prop) (D : column -> Prop) (p : para) (lead : num) : Prop :=
  forall g st cmd ws ex ws' (cs : nat -> colfill) (ae : bool) fuel chunks, A g -> psg_in F g -> st_in F st ->
    into_words g st = Ok (cmd, ws, ex) -> indent_first ws (p_indent p) = Ok ws' -> (forall i, D (cf_box (cs i))) ->
    shape fuel p ws' (cols_of cs) ae lead = Ok chunks ->
    forall i ls, nth_error chunks i = Some ls -> Forall (R (c_width (cf_box (cs i)))) ls.
Lemma add_fit c lead a ls : lines_fit c -> Forall (R (c_width (cf_box c))) ls -> lines_fit (cf_add c (chunk lead a ls)).
Proof.
  intros C L. unfold lines_fit, col_shapes, cf_add, chunk. cbn [cf_blocks cf_box]. rewrite map_app. apply Forall_app. split; [exact C|].
  constructor; [exact L|constructor].
Qed.
Lemma para_fit F A D fuel p lead gs : lays F A D p lead -> forall cs st out, Forall A gs -> Forall (psg_in F) gs -> st_in F st ->
  (forall i, D (cf_box (cs i))) -> (forall i, lines_fit (cs i)) ->
  para_loop fuel p gs cs st lead = Ok out -> Forall lines_fit out.
Proof.
  intros LY. induction gs as [|g gs IH]; intros cs st out GA G S DC LC E; cbn [para_loop] in E.
  - apply Ok_inj in E. subst out. constructor; [apply LC|constructor].
  - inversion G as [|? ? G1 G2]; subst. inversion GA as [|? ? A1 A2]; subst.
    apply bind_ok in E as ([[done st'] ex] & E1 & E). unfold fill_paragraph in E1.
    apply bind_ok in E1 as ([[cmd ws] ex'] & W & E1). cbn beta iota zeta in E1.
    apply bind_ok in E1 as (ws' & I & E1). apply bind_ok in E1 as (chunks & SH & E1). apply Ok_inj in E1. injection E1 as <- <- <-.
    pose proof (into_words_in F _ _ _ G1 S W) as [CI WI]. cbn [fst snd] in CI, WI.
    pose proof (indent_first_in F _ _ _ WI I) as WI'.
    assert (ST : st_in F (states_after chunks (apply cmd st))).
    { apply states_after_in; [apply apply_in; assumption|]. eapply shape_chunks_in; eauto. }
    set (done := add_chunks cs (map (chunk lead (p_align p)) chunks)) in *.
    assert (DR : Forall lines_fit done).
    { apply Forall_forall. intros c IC. apply In_nth_error in IC as (i & N).
      apply law_chunks_nth in N as (s & N & ->). rewrite nth_error_map in N. destruct (nth_error chunks i) as [ls|] eqn:NE'; [|discriminate].
      injection N as <-. apply add_fit; [apply LC|]. exact (LY _ _ _ _ _ _ _ _ _ _ A1 G1 S W I DC SH i ls NE'). }
    destruct (rev done) as [|col filled] eqn:RV; [discriminate|].
    assert (DE : done = rev filled ++ [col]) by (rewrite <- (rev_involutive done), RV; reflexivity).
    assert (DB : D (cf_box col)). { destruct (chunks_box _ _ _ _ RV) as (i & s & ->). cbn [cf_add cf_box]. apply DC. }
    rewrite DE in DR. apply Forall_app in DR as [DR1 DR2]. inversion DR2; subst.
    destruct ex'.
    + apply bind_ok in E as (out' & E2 & E). apply Ok_inj in E. subst out. apply Forall_app; split; [exact DR1|].
      refine (IH _ _ _ A2 G2 ST _ _ E2); intros [|i]; cbn [scons]; auto; unfold sdrop; auto.
    + apply Ok_inj in E. subst out. apply Forall_app; auto.
Qed.
(** ** whole pages *)
Definition open_cols (D : column -> Prop) (h H : num) (cs : nat -> colfill) : Prop :=
  ample_from fin h H cs /\ (forall i, D (cf_box (cs i))) /\ (forall i, lines_fit (cs i)).
Definition fine (F : font -> num -> Prop) (A : para -> list passage -> Prop) (D : column -> Prop) (h H : num) (base : full) (p : para) : Prop :=
  types_in F base (ISpan (p_style p) (p_content p)) /\ fit_lines fin h H (para_lead base p)
  /\ Forall (A p) (splitlines (flatten (full_or base (p_style p)) (p_style p) (p_content p)))
  /\ breaks F (A p) D H p (para_lead base p) /\ lays F (A p) D p (para_lead base p).
Lemma fine_kept (F : font -> num -> Prop) A D h H base p fuel cs out : fin h -> fin H -> fine F A D h H base p -> open_cols D h H cs ->
  para_columns fuel p base cs = Ok out ->
  only_adds cs out /\ Forall (fun c => ample fin h H c /\ lines_fit c) out /\ open_cols D h H (next_cols out cs).
Proof.
  intros Fh FH (T & L & GA & _ & LY) (J1 & J2 & J3) O. assert (OA := para_only_adds _ _ _ _ _ O). destruct OA as (NE & added & A0).
  split; [split; [exact NE|eauto]|]. assert (O' := O). unfold para_columns in O'. change (max_lead _ _) with (para_lead base p) in O'.
  assert (BP : st_in F (as_state (full_or base (p_style p)))) by apply T.
  assert (TP : Forall (psg_in F) (splitlines (flatten (full_or base (p_style p)) (p_style p) (p_content p)))).
  { apply splitlines_in, flatten_types; [apply T|]. apply types_twice, T. }
  assert (RO := para_ample fin LAW h H fuel p _ _ cs _ out Fh FH L J1 O').
  assert (FO := para_fit F (A p) D fuel p _ _ LY cs _ out GA TP BP J2 J3 O').
  assert (BO : Forall (fun c => ample fin h H c /\ lines_fit c) out) by (apply Forall_and; assumption).
  split; [exact BO|].
  assert (BX : forall c, In c out -> D (cf_box c)).
  { intros c I. red in A0. rewrite A0 in I. apply in_map_iff in I as (k & <- & _).
    replace (cf_box (fold_left cf_add (nth k added []) (cs k))) with (cf_box (cs k)); [apply J2|].
    generalize (cs k). induction (nth k added []) as [|x l IH]; intros c; cbn [fold_left]; [reflexivity|]. rewrite <- IH. reflexivity. }
  rewrite Forall_forall in BO.
  split; [split|split]; intros j; unfold next_cols; set (i := _ + _).
  - destruct (nth_in_or_default i out (cs i)) as [I2| ->]; [|apply J1]. apply BO, I2.
  - rewrite nth_overflow; [|unfold i; lia]. destruct out as [|c0 out]; [congruence|].
    replace i with (S (List.length out + j)) by (unfold i; cbn; lia). apply J1.
  - destruct (nth_in_or_default i out (cs i)) as [I2| ->]; [|apply J2]. apply BX, I2.
  - destruct (nth_in_or_default i out (cs i)) as [I2| ->]; [|apply J3]. apply BO, I2.
Qed.
Lemma fine_columns (F : font -> num -> Prop) A D h H base p cs : all_split -> (forall f z, F f z -> neqb z n0 = false) -> fin h -> fin H ->
  fine F A D h H base p -> open_cols D h H cs ->
  exists n out, forall fuel, n <= fuel -> para_columns fuel p base cs = Ok out.
Proof.
  intros HY FNZ Fh FH (T & L & GA & BW & _) (J1 & J2 & _). unfold para_columns. change (max_lead _ _) with (para_lead base p).
  apply (para_total_law F (A p) D h H); auto.
  - apply splitlines_in, flatten_types; [apply T|]. apply types_twice, T.
  - apply T.
Qed.
Definition template_ok (D : column -> Prop) (h H : num) (template : Z -> page drawing) : Prop :=
  forall n, pg_columns (template n) <> [] /\
    Forall (fun c => fin (c_height c) /\ le h (c_height c) /\ le (c_height c) H /\ D c) (pg_columns (template n)).
Lemma open_start D h H template pnum : fin h -> fin H -> le n0 h -> template_ok D h H template ->
  open_cols D h H (flat_todo (fun i => pf_new (template (pnum + Z.of_nat i)%Z)))
  /\ forall i c, In c (pg_columns (template i)) -> ample fin h H (cf_new c) /\ lines_fit (cf_new c).
Proof.
  intros Fh FH H0 T. assert (TN : forall i, pg_columns (template i) <> []) by (intros; apply T).
  assert (NW : forall n c, In c (pg_columns (template n)) -> (ample fin h H (cf_new c) /\ lines_fit (cf_new c)) /\ D (cf_box (cf_new c))).
  { intros n c I. destruct (T n) as (_ & F). rewrite Forall_forall in F. destruct (F c I) as (F1 & F2 & F3 & F4).
    split; [|exact F4]. split; [|constructor]. split; cbn [cf_free cf_new cf_blocks]; [|auto].
    split; [exact F1|]. split; [|exact F3]. eapply (law_trans _ LAW); [apply (law_zero _ LAW)|exact Fh|exact F1|exact H0|exact F2]. }
  split; [|intros i c I; apply (NW i c I)]. split; [split|split].
  - apply (flat_new template pnum (ample fin h H)); [exact TN|]. intros i c I. apply (NW i c I).
  - apply (fresh_new template pnum TN).
  - apply (flat_new template pnum (fun c => D (cf_box c))); [exact TN|]. intros i c I. apply (NW i c I).
  - apply (flat_new template pnum lines_fit); [exact TN|]. intros i c I. apply (NW i c I).
Qed.
Lemma open_pointwise D h H : pointwise (open_cols D h H).
Proof. intros cs cs' X ((J1 & J2) & J3 & J4). split; [split|split]; intros i; rewrite <- X; auto. Qed.
Lemma pages_fit (F : font -> num -> Prop) A D h H fuel ps template base pnum pages : fin h -> fin H -> le n0 h -> template_ok D h H template ->
  Forall (fine F A D h H base) ps -> auto_pages fuel (map (@BPara NUM) ps) template base pnum = Ok pages ->
  Forall (fun p => Forall lines_fit (snd p)) pages.
Proof.
  intros Fh FH H0 T B E. destruct (open_start D h H template pnum Fh FH H0 T) as (ST & NW).
  eapply (auto_pages_spec (open_cols D h H) (fun c => ample fin h H c /\ lines_fit c)) in E as (_ & P & _).
  - apply Forall_forall. intros p I. apply In_nth_error in I as (k & N). destruct (P k p N) as (_ & _ & K).
    eapply Forall_impl; [|exact K]. cbn beta. tauto.
  - apply open_pointwise.
  - apply Forall_forall. intros b I. apply in_map_iff in I as (p & <- & I). intros cs out J O. rewrite Forall_forall in B.
    eapply (fine_kept F A D h H base p); eauto.
  - intros n. apply T.
  - exact ST.
  - exact NW.
Qed.
Lemma loop_found (F : font -> num -> Prop) A D h H ps template base pnum : all_split -> (forall f z, F f z -> neqb z n0 = false) -> fin h -> fin H -> le n0 h ->
  template_ok D h H template -> Forall (fine F A D h H base) ps ->
  exists n x, forall fuel, n <= fuel -> auto_loop fuel (map (@BPara NUM) ps) base (fun i => pf_new (template (pnum + Z.of_nat i)%Z)) = Ok x.
Proof.
  intros HY FNZ Fh FH H0 T B. destruct (open_start D h H template pnum Fh FH H0 T) as (ST & NW).
  assert (TN : forall i, pg_columns (template i) <> []) by (intros; apply T).
  assert (O : open_pages (fun i => pf_new (template (pnum + Z.of_nat i)%Z))) by apply (fresh_new template pnum TN).
  revert ST O. generalize (fun i : nat => pf_new (template (pnum + Z.of_nat i)%Z)). intros doc J O.
  revert doc J O. induction B as [|p ps LP _ IH]; intros doc J O; cbn [map auto_loop]; [exists 0; eauto|]. cbn [block_columns].
  destruct (fine_columns F A D h H base p _ HY FNZ Fh FH LP J) as (n1 & out & E1).
  destruct (fine_kept F A D h H base p n1 _ out Fh FH LP J (E1 n1 (le_n _))) as ((NE & _) & _ & JN).
  destruct (fill_loop_spec (S (List.length out)) out doc (Nat.lt_succ_diag_r _) NE O) as (comp & doc' & E2 & _ & _ & FT & O').
  assert (FI : fill_into out doc = Ok (comp, doc')) by (unfold fill_into; destruct out; [congruence|exact E2]).
  destruct (IH doc') as (n2 & y & E3); [|exact O'|].
  { eapply open_pointwise; [|exact JN]. intros j. rewrite FT. reflexivity. }
  exists (Nat.max n1 n2). eexists. intros fuel LF. rewrite E1 by lia. cbn [bind]. rewrite FI. cbn [bind snd]. rewrite E3 by lia. reflexivity.
Qed.
Lemma pages_found (F : font -> num -> Prop) A D h H ps template base pnum : all_split -> (forall f z, F f z -> neqb z n0 = false) -> fin h -> fin H -> le n0 h ->
  template_ok D h H template -> Forall (fine F A D h H base) ps ->
  exists n pages, forall fuel, n <= fuel -> auto_pages fuel (map (@BPara NUM) ps) template base pnum = Ok pages.
Proof.
  intros HY FNZ Fh FH H0 T B. destruct (loop_found F A D h H ps template base pnum HY FNZ Fh FH H0 T B) as (n & x & E).
  exists n. eexists. intros fuel L. unfold auto_pages. rewrite (E fuel L). cbn [bind]. reflexivity.
Qed.
End LawTotal.
