(** * Properties C78: an embedded font is described as its file says. *)
From Coq Require Import QArith Qcanon Qround Lqa Lia String.
From Verif Require Import Base Atoms FontSpec FontProofs Properties_Fonts Num Fonts Gpos TrueType.
Local Open Scope list_scope.
Open Scope nat_scope.

Lemma glyph_index_spec l g i : (glyph_index l g i < 65536)%N ->
  exists k, glyph_index l g i = (i + N.of_nat k)%N /\ nth_error l k = Some g.
Proof.
  revert i. induction l as [|x l IH]; cbn; intros i H; [lia|].
  destruct (N.eqb_spec g x) as [->|]; [exists 0; split; [lia|reflexivity]|].
  destruct (IH _ H) as (k & E & K). exists (S k). split; [rewrite E; lia|exact K].
Qed.
Lemma Qtrunc_bounds q : (0 <= q)%Q -> (inject_Z (Qtrunc q) <= q)%Q /\ (q < inject_Z (Qtrunc q) + 1)%Q.
Proof.
  intros H. unfold Qtrunc. destruct q as [n d]. unfold Qle, Qlt in *. cbn in *.
  assert (0 <= n)%Z by lia. pose proof (Z.quot_rem' n (Zpos d)). pose proof (Z.rem_bound_pos n (Zpos d)). nia.
Qed.
Lemma Qround_bounds q : (q - (1 # 2) <= inject_Z (Qround_he q))%Q /\ (inject_Z (Qround_he q) <= q + (1 # 2))%Q.
Proof.
  unfold Qround_he. pose proof (Qfloor_le q) as A. pose proof (Qlt_floor q) as B. rewrite inject_Z_plus in B.
  change (inject_Z 1) with 1%Q in B.
  destruct (Qcompare_spec (q - inject_Z (Qfloor q)) (1 # 2)) as [E|E|E]; try destruct (Z.even (Qfloor q));
    rewrite ?inject_Z_plus; change (inject_Z 1) with 1%Q; split; lra.
Qed.

(** the advance of a glyph in thousandths of the em *)
Definition em_advance (t : tt) (g : N) : Q := inject_Z (tt_advance t g) * 1000 / inject_Z (tt_upem t).
Lemma scale_value t v : (0 < tt_upem t)%Z ->
  this (nmul (tt_scale t : @num QcNum) (nZ v)) == inject_Z v * 1000 / inject_Z (tt_upem t).
Proof.
  intros U. unfold tt_scale. cbn. rewrite Qcdiv_def, !this_mult. unfold Qcinv. rewrite !this_Q2Qc.
  field. intro E. unfold Qeq in E. cbn in E. lia.
Qed.
Lemma scale_value' t v : (0 < tt_upem t)%Z ->
  this (nmul (nZ v : @num QcNum) (tt_scale t)) == inject_Z v * 1000 / inject_Z (tt_upem t).
Proof.
  intros U. rewrite <- scale_value by exact U. cbn. rewrite Qcmult_comm. reflexivity.
Qed.

(** The glyph that a reader shows for a code (through CIDToGIDMap, in the subset that is
    embedded) is the one the font has for the character, and the width recorded for the
    code is the advance of that glyph, to less than one unit. *)
Theorem C78_shown_glyphs :
  forall (ENV : Env QcNum) (f : font) (t : tt) (hist : list str) outs m id objs c i,
  (forall x, charwidth f x = tt_charwidth t x) -> (0 < tt_upem t)%Z ->
  encodes cids_empty hist = (outs, m) ->
  subset_objects f (ttf_of t) m id = Ok objs -> In (c, i) (cm_entries m) ->
  (0 <= tt_advance t (glyph_of t c))%Z ->
  exists dict w stream gid width,
    obj_lookup (id + 1) objs = Some dict /\ dict_lookup (bs "W") dict = Some (AArr w) /\
    w_lookup w (N.to_nat i) = Some width /\
    dict_lookup (bs "CIDToGIDMap") dict = Some (ARef (id + 5)) /\
    obj_lookup (id + 5) objs = Some (AStream stream []) /\
    gid_lookup (List.concat stream) (N.to_nat i) = Some gid /\
    nth_error (tt_order t (map fst (cm_entries m))) (N.to_nat gid) = Some (glyph_of t c) /\
    (inject_Z width <= em_advance t (glyph_of t c) < inject_Z width + 1)%Q.
Proof.
  intros ENV f t hist outs m id objs c i CW U E SO IN ADV.
  destruct (C15_tables_indexed_by_code _ ENV f (ttf_of t) hist outs m id objs c i E SO IN)
    as (dict & w & stream & H1 & H2 & H3 & H4 & H5 & H6).
  exists dict, w, stream. cbn [ttf_of ttf_gid] in H6.
  assert (GB : (glyph_index (tt_order t (map fst (cm_entries m))) (glyph_of t c) 0 < 65536)%N).
  { unfold subset_objects in SO. apply bind_ok in SO as (? & _ & SO). apply bind_ok in SO as (gids & SO & _).
    apply mapM_ok in SO. assert (In c (map fst (cm_entries m))) as IC by (apply in_map_iff; exists (c, i); auto).
    clear -SO IC. cbn [ttf_of ttf_gid] in SO.
    remember (map fst (cm_entries m)) as used eqn:EU. clear EU.
    assert (forall l gs, Forall2 (fun x y => encode_gid (glyph_index (tt_order t used) (glyph_of t x) 0) = Ok y) l gs -> In c l ->
      (glyph_index (tt_order t used) (glyph_of t c) 0 < 65536)%N) as G.
    { induction 1 as [|x y l gs F1 F2 IH]; intros IC0; [contradiction|]. destruct IC0 as [->|IC0]; [|auto].
      unfold encode_gid in F1. destruct (N.ltb_spec (glyph_index (tt_order t used) (glyph_of t c) 0) 65536); [assumption|discriminate]. }
    eapply G; eauto. }
  destruct (glyph_index_spec _ _ _ GB) as (k & EK & NK).
  exists (glyph_index (tt_order t (map fst (cm_entries m))) (glyph_of t c) 0), (ntrunc (charwidth f c)).
  do 6 (split; [assumption|]). split; [rewrite EK, N.add_0_l, Nnat.Nat2N.id; exact NK|].
  rewrite CW. unfold tt_charwidth, em_advance. cbn [ntrunc QcNum].
  rewrite <- (scale_value t (tt_advance t (glyph_of t c)) U).
  apply Qtrunc_bounds. rewrite scale_value by exact U. unfold Qdiv. apply Qmult_le_0_compat.
  - unfold Qle. cbn. lia.
  - apply Qinv_le_0_compat. unfold Qle. cbn. lia.
Qed.
Print Assumptions C78_shown_glyphs.

(** [near v q]: [v] is [q] rounded to an integer *)
Definition near (v : Z) (q : Q) : Prop := (q - (1 # 2) <= inject_Z v <= q + (1 # 2))%Q.
Definition per_em (t : tt) (v : Z) : Q := inject_Z v * 1000 / inject_Z (tt_upem t).
Definition int_entry (k : bytes) (d : atom) (P : Z -> Prop) : Prop := exists v, dict_lookup k d = Some (AInt v) /\ P v.

(** The font descriptor: the metrics of the file in thousandths of the em, rounded, and
    the flags.  StemV is between 50 and 241 for weights from 100 to 800. *)
Theorem C78_descriptor_partial :
  forall (ENV : Env QcNum) (f : font) (t : tt) m id objs,
  (0 < tt_upem t)%Z -> subset_objects f (ttf_of t) m id = Ok objs ->
  exists d, obj_lookup (id + 4) objs = Some d /\
    int_entry (bs "Ascent") d (fun v => near v (per_em t (tt_ascent t))) /\
    int_entry (bs "Descent") d (fun v => near v (per_em t (tt_descent t))) /\
    int_entry (bs "CapHeight") d (fun v => near v (per_em t (match tt_cap t with Some c => c | None => tt_ascent t end))) /\
    int_entry (bs "ItalicAngle") d (fun v => near v (tt_angle t)) /\
    int_entry (bs "Flags") d (fun v => Z.testbit v 0 = tt_fixed t /\ Z.testbit v 2 = true /\
      (Z.testbit v 6 = true <-> ~ tt_angle t == 0) /\ (Z.testbit v 18 = true <-> (600 <= tt_weight t)%Z)) /\
    int_entry (bs "StemV") d (fun v => (100 <= tt_weight t <= 800 -> 50 <= v <= 241)%Z) /\
    (let '(x0, y0, x1, y1) := tt_bbox t in exists a b c e,
      dict_lookup (bs "FontBBox") d = Some (AArr [AInt a; AInt b; AInt c; AInt e]) /\
      near a (per_em t x0) /\ near b (per_em t y0) /\ near c (per_em t x1) /\ near e (per_em t y1)).
Proof.
  intros ENV f t m id objs U SO. unfold subset_objects in SO.
  apply bind_ok in SO as (? & _ & SO). apply bind_ok in SO as (gids & _ & SO). apply Ok_inj in SO.
  assert (SR : forall v, near (scaled_round (NUM := QcNum) t v) (per_em t v)).
  { intro v. pose proof (scale_value' t v U) as EV. fold (per_em t v) in EV. unfold scaled_round, near.
    cbn [nround QcNum]. revert EV. generalize (per_em t v) as r. generalize (this (nmul (nZ v : @num QcNum) (tt_scale t))) as q.
    intros q r EV. pose proof (Qround_bounds q). split; lra. }
  assert (LK : forall k, In k [0; 1; 2; 3; 5; 6]%N -> ((id + k) =? id + 4)%N = false).
  { intros k K. apply N.eqb_neq. cbn in K. lia. }
  set (d := ADict _) in SO at 3.
  exists d. split.
  { subst objs. unfold obj_lookup. cbn [find fst].
    replace (id =? id + 4)%N with false by (symmetry; apply N.eqb_neq; lia).
    rewrite !LK by (cbn; tauto). rewrite N.eqb_refl. reflexivity. }
  assert (G : forall k v (P : Z -> Prop), dict_lookup k d = Some (AInt v) -> P v -> int_entry k d P) by (intros; eexists; eauto).
  split; [eapply G; [reflexivity|apply SR]|]. split; [eapply G; [reflexivity|apply SR]|].
  split; [eapply G; [reflexivity|apply SR]|].
  split.
  { eapply G; [reflexivity|]. cbn. unfold near. pose proof (Qround_bounds (Qred (tt_angle t))) as [A B].
    pose proof (Qred_correct (tt_angle t)). split; lra. }
  split.
  { eapply G; [reflexivity|]. cbn [ttf_of ttf_flags]. unfold tt_flags.
    rewrite !Z.lor_spec.
    assert (AN : Qeq_bool (tt_angle t) 0 = false <-> ~ tt_angle t == 0).
    { split; [intros E X; apply Qeq_bool_iff in X; congruence|]. intro X. destruct (Qeq_bool (tt_angle t) 0) eqn:E; [|reflexivity].
      apply Qeq_bool_iff in E. contradiction. }
    destruct (tt_fixed t), (Qeq_bool (tt_angle t) 0), (Z.leb_spec 600 (tt_weight t)); cbn;
      (split; [reflexivity|]); (split; [reflexivity|]); rewrite <- AN; (split; [split; congruence|]); split; (congruence || lia). }
  split.
  { eapply G; [reflexivity|]. intros W. cbn [ttf_of ttf_stem_v]. unfold tt_stem_v. cbn [nround QcNum].
    match goal with |- context [Qround_he ?x] => set (q := x) end.
    assert (E : q == 50 + (191 # 800) * inject_Z (tt_weight t)).
    { subst q. cbn [nadd nmul ndiv nZ nQ QcNum]. unfold nZ. cbn [nQ QcNum]. rewrite this_plus, this_mult, Qcdiv_def, this_mult.
      unfold Qcinv. rewrite !this_Q2Qc. field. }
    pose proof (Qround_bounds q) as [A B]. revert A B. generalize (Qround_he q) as z. intros z A B.
    assert (W1 : (100 <= inject_Z (tt_weight t) <= 800)%Q) by (unfold Qle; cbn; lia).
    assert (49 < inject_Z z < 242)%Q as [Z1 Z2] by lra.
    unfold Qlt in Z1, Z2. cbn in Z1, Z2. lia. }
  subst d. cbn [ttf_of ttf_bbox]. destruct (tt_bbox t) as [[[x0 y0] x1] y1].
  do 4 eexists. split; [reflexivity|]. repeat split; apply SR.
Qed.
Print Assumptions C78_descriptor_partial.
(** Characters without a width of their own get that of the missing glyph. *)
Theorem C78_default_width :
  forall (ENV : Env QcNum) (f : font) (t : tt) m id objs,
  (0 < tt_upem t)%Z -> subset_objects f (ttf_of t) m id = Ok objs ->
  exists d q, obj_lookup (id + 1) objs = Some d /\ dict_lookup (bs "DW") d = Some (AReal (Some q)) /\ (q == em_advance t (tt_notdef t))%Q.
Proof.
  intros ENV f t m id objs U SO. unfold subset_objects in SO.
  apply bind_ok in SO as (? & _ & SO). apply bind_ok in SO as (gids & _ & SO). apply Ok_inj in SO.
  set (d := ADict _) in SO at 2. exists d. eexists. split; [|split].
  - subst objs. unfold obj_lookup. cbn [find fst]. replace (id =? id + 1)%N with false by (symmetry; apply N.eqb_neq; lia). rewrite N.eqb_refl. reflexivity.
  - reflexivity.
  - apply (scale_value' t _ U).
Qed.
Print Assumptions C78_default_width.

Definition ex_tt : tt := {|
  tt_name := bs "Ex"; tt_upem := 2048; tt_cmap := [(72, 5); (105, 9)]%N; tt_notdef := 0%N;
  tt_advance := fun g => (Z.of_N g * 100)%Z; tt_bbox := (-100, -500, 2000, 1900)%Z; tt_fixed := false; tt_angle := - (25 # 2);
  tt_weight := 900; tt_ascent := 1900; tt_descent := -500; tt_cap := None; tt_gpos := None;
  tt_order := fun _ => [0; 5; 9]%N; tt_file := fun _ => [1; 2; 3]%N |}.
#[local] Instance tt_env : Env QcNum :=
  {| charwidth := fun _ c => tt_charwidth ex_tt c; kerntab := fun _ => None; hyphenator := fun _ s => [s];
     is_wordchar := fun _ => true |}.
Example C78_example :
  let m := snd (encodes cids_empty [[72; 105]; [33]]%N) in
  cm_entries m = [(72, 0); (105, 1); (33, 2)]%N /\
  exists objs, subset_objects (mkFont (TTrue 1 2 3 4) false false) (ttf_of ex_tt) m 9 = Ok objs.
Proof. split; [reflexivity|]. eexists. reflexivity. Qed.

(** The heaviest weight gets a StemV of 265: the weights 100 to 900 are not mapped to
    50 to 241 (embed.py 333-338), because the weight is not counted from 100. *)
Theorem C78_stem_v_refuted :
  exists (t : tt), tt_weight t = 900%Z /\ tt_stem_v (NUM := QcNum) t = 265%Z.
Proof. exists ex_tt. split; [reflexivity|vm_compute; reflexivity]. Qed.
Print Assumptions C78_stem_v_refuted.
