(** * SuccessProofs: laying out whole automatic pages *)
From Coq Require Import QArith Qcanon Qround Lqa.
From Verif Require Import Base Num Fonts State Style StateProofs Properties_Style Words Parse WordsSpec WordWidth Render
  Firstfit FirstfitWidth KnuthPlass Optimum Properties_Optimum
  Common Draw Layout LayoutSpec LayoutProofs LayoutPages LayoutRoom Properties_Layout FontsUsed Fuel LayoutTotal.
Open Scope nat_scope.
Local Open Scope list_scope.

(** every font and size in effect in an item satisfies [F] *)
Fixpoint types_in {NUM : Num} (F : font -> @num NUM -> Prop) (base : @full NUM) (i : @item NUM) : Prop :=
  match i with
  | IStr _ => True
  | ISpan st c =>
      let b := full_or base st in
      F (st_font (as_state b)) (st_size (as_state b))
      /\ (fix all (l : list item) : Prop := match l with [] => True | i :: r => types_in F b i /\ all r end) c
  end.
Lemma types_all {NUM : Num} (F : font -> @num NUM -> Prop) base c : (fix all (l : list item) : Prop := match l with [] => True | i :: r => types_in F base i /\ all r end) c <-> Forall (types_in F base) c.
Proof.
  induction c as [|i c IH]; [split; constructor|]. rewrite IH. split.
  - intros []. constructor; auto.
  - intros H. inversion H; auto.
Qed.
Section Types.
Context {NUM : Num}.
Variable F : font -> @num NUM -> Prop.
Notation ok base := (F (st_font (as_state base)) (st_size (as_state base))).
Lemma style_diff_types st base : ok (full_or base st) -> cmds_in F (style_diff st base).
Proof.
  intros H. unfold style_diff. repeat (apply cmds_app; split).
  - destruct (_ || _)%bool; constructor; [exact H|constructor].
  - destruct (s_color st); [destruct (rgb_eqb _ _)|]; repeat constructor.
  - destruct (s_spacing st); [destruct (neqb _ _)|]; repeat constructor.
  - destruct (s_hyphens st); [destruct (_ =? _)%N|]; repeat constructor.
Qed.
Lemma full_diff_types (f base : full) : ok f -> cmds_in F (full_diff f base).
Proof.
  intros B. unfold full_diff. repeat (apply cmds_app; split).
  - destruct (negb _); constructor; [|constructor]. exact B.
  - destruct (rgb_eqb _ _); repeat constructor.
  - destruct (neqb _ _); repeat constructor.
  - destruct (_ =? _)%N; repeat constructor.
Qed.
Lemma flat_types i : forall base todo, ok base -> types_in F base i -> cmds_in F todo ->
  cmds_in F (snd (flatten_item base i todo)) /\ Forall (fun p => cmds_in F (fst p)) (fst (flatten_item base i todo)).
Proof.
  induction i as [t|st c IH] using item_ind'; intros base todo B SP H.
  - cbn. split; [constructor|]. constructor; [exact H|constructor].
  - rewrite flatten_item_span. destruct SP as [S1 S2]. apply types_all in S2.
    assert (X : forall todo, cmds_in F todo -> cmds_in F (snd (flatten_items (full_or base st) c todo))
       /\ Forall (fun p => cmds_in F (fst p)) (fst (flatten_items (full_or base st) c todo))).
    { clear todo H. induction IH as [|i c Hi _ IHc]; intros todo H; cbn [flatten_items]; [split; [exact H|constructor]|].
      inversion S2 as [|? ? P1 P2]; subst.
      destruct (Hi (full_or base st) todo S1 P1 H) as [A1 B1]. destruct (flatten_item (full_or base st) i todo) as [p1 t1]. cbn [fst snd] in *.
      destruct (IHc P2 t1 A1) as [A2 B2]. destruct (flatten_items (full_or base st) c t1) as [p2 t2]. cbn [fst snd] in *.
      split; [exact A2|]. apply Forall_app. split; [exact B1|exact B2]. }
    destruct (X (todo ++ style_diff st base)) as [A C].
    { apply cmds_app. split; [exact H|]. apply style_diff_types; assumption. }
    destruct (flatten_items _ _ _) as [ps t]. cbn [fst snd] in *. split; [|exact C].
    apply cmds_app. split; [exact A|]. apply full_diff_types, B.
Qed.
Lemma flatten_types base st content : ok base -> types_in F base (ISpan st content) -> psg_in F (flatten base st content).
Proof.
  intros B H. unfold flatten, passages_of. apply Forall_forall. intros p I. apply in_map_iff in I as (q & <- & I). cbn [fst].
  apply squash_in. pose proof (proj2 (flat_types (ISpan st content) base [] B H (Forall_nil _))) as S. rewrite Forall_forall in S. apply S, I.
Qed.
Lemma full_or_twice (base : @full NUM) st : full_or (full_or base st) st = full_or base st.
Proof. destruct st as [[?|] [?|] [?|] [?|] [?|] [?|] [?|]]; reflexivity. Qed.
Lemma types_twice base st content : types_in F base (ISpan st content) -> types_in F (full_or base st) (ISpan st content).
Proof. cbn [types_in]. rewrite full_or_twice. auto. Qed.
End Types.

(** ** Paragraphs that can be laid out on columns at least [width] wide, with room for
    a line of height [h] *)
Definition positive (_ : font) (z : @num QcNum) : Prop := (0 < z)%Qc.
Definition only (f0 : font) (z0 : @num QcNum) (f : font) (z : @num QcNum) : Prop := f = f0 /\ z = z0.
Definition layable {ENV : Env QcNum} (h width : Qc) (base : @full QcNum) (p : @para QcNum) : Prop :=
  let sty := full_or base (p_style p) in
  types_in positive base (ISpan (p_style p) (p_content p)) /\ fits_lines h base p
  /\ match p_optimal p with
     | None => True
     | Some (tolerance, _) =>
         (0 < tolerance)%Qc
         /\ if is_justify (p_align p) then (0 <= p_indent p)%Qc
            else let st := as_state sty in
                 types_in (only (st_font st) (st_size st)) base (ISpan (p_style p) (p_content p))
                 /\ (0 < spacewidth (st_font st))%Qc
                 /\ Forall (pieces_fit p (st_font st) (st_size st) width) (splitlines (flatten sty (p_style p) (p_content p)))
     end.
Definition wide (width : Qc) (template : Z -> page (@drawing QcNum)) : Prop :=
  forall n, Forall (fun c => width <= c_width c)%Qc (pg_columns (template n)).
Section Success.
Context {ENV : Env QcNum}.
Lemma fold_box (l : list (@shaped QcNum)) : forall c, cf_box (fold_left cf_add l c) = cf_box c.
Proof. induction l as [|s l IH]; intros c; cbn [fold_left]; [reflexivity|]. rewrite IH. reflexivity. Qed.
Lemma layable_columns h (width : Qc) base p cs : all_split -> glyphs_nonneg -> layable h width base p -> (0 < width)%Qc ->
  roomy_from h cs -> (forall i, width <= c_width (cf_box (cs i)))%Qc ->
  exists n out, forall fuel, n <= fuel -> para_columns fuel p base cs = Ok out.
Proof.
  intros HY GN (SP & (L1 & L2) & O) W0 R W. unfold para_columns. change (max_lead _ _) with (para_lead base p).
  set (sty := full_or base (p_style p)) in *.
  assert (WP : forall i, (0 < c_width (cf_box (cs i)))%Qc) by (intros i; eapply Qclt_le_trans; [exact W0|apply W]).
  assert (BP : st_in positive (as_state sty)) by apply SP.
  assert (TP : forall F : font -> @num QcNum -> Prop, types_in F base (ISpan (p_style p) (p_content p)) ->
     Forall (psg_in F) (splitlines (flatten sty (p_style p) (p_content p)))).
  { intros F T. apply splitlines_in, flatten_types; [apply T|]. apply types_twice, T. }
  assert (AT : forall l : list (list passage), Forall (fun _ => True) l) by (intros l; apply Forall_forall; auto).
  destruct (p_optimal p) as [[tol P]|] eqn:E.
  - destruct O as (TL & O). destruct (is_justify (p_align p)) eqn:J.
    + apply (para_total positive (fun _ => True) (fun c => 0 < c_width c)%Qc h p (para_lead base p)); auto.
      eapply just_breaks_well; eauto. destruct (p_align p); try discriminate; reflexivity.
    + destruct O as (T1 & SW & FIT).
      apply (para_total (only (st_font (as_state sty)) (st_size (as_state sty))) (pieces_fit p (st_font (as_state sty)) (st_size (as_state sty)) width) (fun c => width <= c_width c)%Qc h p (para_lead base p)); auto.
      * intros f z (_ & ->). exact BP.
      * eapply ragged_breaks_well; eauto. apply Qclt_le_weak, W0.
      * split; reflexivity.
  - apply (para_total positive (fun _ => True) (fun c => 0 < c_width c)%Qc h p (para_lead base p)); auto.
    apply ff_breaks_well; auto. apply glyphs_hyphens, GN.
Qed.
Definition open_cols (h width : Qc) (cs : nat -> @colfill QcNum) : Prop := roomy_from h cs /\ (forall i, width <= c_width (cf_box (cs i)))%Qc.
Lemma layable_step h (width : Qc) base p cs : all_split -> glyphs_nonneg -> layable h width base p -> (0 < width)%Qc -> open_cols h width cs ->
  exists n out, (forall fuel, n <= fuel -> para_columns fuel p base cs = Ok out) /\ out <> [] /\ open_cols h width (next_cols out cs).
Proof.
  intros HY GN LP W0 (J1 & J2).
  destruct (layable_columns h width base p cs HY GN LP W0 J1 J2) as (n & out & E). exists n, out. split; [exact E|].
  pose proof (E n (le_n n)) as O. destruct (para_only_adds _ _ _ _ _ O) as (NE & added & A). split; [exact NE|].
  assert (RO : Forall (roomy h) out).
  { unfold para_columns in O. change (max_lead _ _) with (para_lead base p) in O. destruct LP as (_ & (L1 & L2) & _).
    exact (para_roomy h n p _ _ cs _ out L1 L2 J1 O). }
  rewrite Forall_forall in RO.
  assert (BX : forall c, In c out -> (width <= c_width (cf_box c))%Qc).
  { intros c I. red in A. rewrite A in I. apply in_map_iff in I as (k & <- & _). rewrite fold_box. apply J2. }
  split; [split|]; intros j; unfold next_cols; set (i := _ + _).
  - destruct (nth_in_or_default i out (cs i)) as [I2| ->]; [|apply J1]. apply RO, I2.
  - rewrite nth_overflow; [|unfold i; lia]. destruct out as [|c0 out]; [congruence|].
    replace i with (S (List.length out + j)) by (unfold i; cbn; lia). apply J1.
  - destruct (nth_in_or_default i out (cs i)) as [I2| ->]; [|apply J2]. apply BX, I2.
Qed.
Lemma open_new h width template pnum : (0 <= h)%Qc -> room_for h template -> wide width template ->
  open_cols h width (flat_todo (fun i => pf_new (template (pnum + Z.of_nat i)%Z))).
Proof.
  intros H0 RF WD. assert (TN : forall i, pg_columns (template i) <> []) by (intros; apply RF).
  assert (RN : forall n c, In c (pg_columns (template n)) -> roomy h (cf_new c) /\ (width <= c_width (cf_box (cf_new c)))%Qc).
  { intros n c I. destruct (RF n) as (_ & F). rewrite Forall_forall in F. specialize (F c I). specialize (WD n). rewrite Forall_forall in WD.
    split; [split|]; cbn; [eapply Qcle_trans; eauto|auto|apply WD, I]. }
  split; [split|].
  - apply (flat_new template pnum (roomy h)); [exact TN|]. intros; apply RN with (n := i); assumption.
  - apply (fresh_new template pnum TN).
  - apply (flat_new template pnum (fun c => width <= c_width (cf_box c))%Qc); [exact TN|]. intros; apply RN with (n := i); assumption.
Qed.
End Success.
