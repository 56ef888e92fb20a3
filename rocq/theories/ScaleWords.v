(** * ScaleWords: words and lines in another size.
    All lengths (sizes of fonts, widths, distances) times [k]; amounts in thousandths of
    the font size and ratios stay. *)
From Coq Require Import QArith Qcanon Qround.
From Verif Require Import Base Gfmt Num Fonts State Style Words Parse Show Firstfit.
From Coq Require Import Lia.
Local Open Scope list_scope.
Open Scope nat_scope.

#[local] Transparent Qcdiv.
(** A factor for lengths, and new colours for the old ones. *)
Record scaling := mkScaling { factor :> Qc; recolour : @rgb QcNum -> @rgb QcNum }.
Section Scale.
Context {ENV : Env QcNum}.
Variable k : scaling.
Hypothesis K : (0 < k)%Qc.
Notation psg := (@passage QcNum).
(** ** Arithmetic *)
Ltac zz := match goal with |- @eq _ ?a ?b => change (@eq Qc a b) end; cbn [nadd nsub nmul ndiv QcNum]; unfold Qcdiv; ring.
Lemma k_ne : factor k <> 0%Qc. Proof. intros E. rewrite E in K. exact (Qclt_not_eq _ _ K eq_refl). Qed.
Lemma z_lt a b : @nltb QcNum (a * k)%Qc (b * k)%Qc = @nltb QcNum a b.
Proof.
  cbn [nltb QcNum]. destruct (Qcltb a b) eqn:E.
  - apply Qcltb_lt. apply Qcmult_lt_compat_r; [exact K|]. apply Qcltb_lt. exact E.
  - apply Qcltb_nlt. apply Qcmult_le_compat_r; [apply Qcltb_nlt; exact E|]. apply Qclt_le_weak. exact K.
Qed.
Lemma z_le a b : @nleb QcNum (a * k)%Qc (b * k)%Qc = @nleb QcNum a b.
Proof.
  cbn [nleb QcNum]. destruct (Qcleb a b) eqn:E.
  - apply Qcleb_le. apply Qcmult_le_compat_r; [apply Qcleb_le; exact E|]. apply Qclt_le_weak. exact K.
  - apply Qcleb_nle. apply Qcmult_lt_compat_r; [exact K|]. apply Qcleb_nle. exact E.
Qed.
Lemma z_cancel a b : (a * k = b * k)%Qc -> a = b.
Proof. intros H. apply (f_equal (fun x => (x * / k)%Qc)) in H. rewrite <- !Qcmult_assoc, !Qcmult_inv_r, !Qcmult_1_r in H by exact k_ne. exact H. Qed.
Lemma z_eq a b : @neqb QcNum (a * k)%Qc (b * k)%Qc = @neqb QcNum a b.
Proof.
  cbn [neqb QcNum]. destruct (Qceqb a b) eqn:E.
  - apply Qceqb_eq in E. subst. apply Qceqb_eq. reflexivity.
  - apply Qceqb_neq. intros H. apply Qceqb_neq in E. apply E. apply z_cancel. exact H.
Qed.
Lemma z_0 : @n0 QcNum = (@n0 QcNum * k)%Qc.
Proof. change (@n0 QcNum) with (Q2Qc 0). symmetry. apply Qcmult_0_l. Qed.
Lemma z_truthy a : @ntruthy QcNum (a * k)%Qc = @ntruthy QcNum a.
Proof. unfold ntruthy. rewrite z_0 at 1. rewrite z_eq. reflexivity. Qed.
Lemma z_ratio a b : (a * k / (b * k) = a / b)%Qc.
Proof.
  destruct (Qc_eq_dec b 0) as [->|B].
  - rewrite Qcmult_0_l. unfold Qcdiv. change (/ 0)%Qc with 0%Qc. rewrite !Qcmult_0_r. reflexivity.
  - assert (N := k_ne). field. split; assumption.
Qed.
Lemma z_pdiv a b : @pdiv QcNum (a * k)%Qc (b * k)%Qc = pdiv a b.
Proof. unfold pdiv. rewrite z_0 at 1. rewrite z_eq. destruct (@neqb QcNum b n0); [reflexivity|]. cbn [ndiv QcNum]. rewrite z_ratio. reflexivity. Qed.
Lemma z_sum l : @nsum QcNum (map (fun x => (x * k)%Qc) l) = (@nsum QcNum l * k)%Qc.
Proof. induction l as [|x l IH]; [apply z_0|]. cbn [map]. rewrite !nsum_cons_Qc, IH. symmetry. apply Qcmult_plus_distr_l. Qed.
(** ** States and commands *)
Definition zst (s : @state QcNum) : @state QcNum := mkState (st_font s) (st_size s * k)%Qc (recolour k (st_color s)) (st_spacing s) (st_hyphens s).
Fixpoint zcmd (c : @command QcNum) : @command QcNum :=
  match c with SetFont f z => @SetFont QcNum f (z * k)%Qc | SetColor c => SetColor (recolour k c) | Chain l => Chain (map zcmd l) | _ => c end.
Lemma z_apply c : forall s, apply (zcmd c) (zst s) = zst (apply c s).
Proof.
  induction c as [| f z | x | c | h | l IH] using (@command_ind' QcNum); intros s; try reflexivity. cbn [zcmd apply].
  revert s. induction IH as [|c l C _ IH]; intros s; cbn [map fold_left]; [reflexivity|]. rewrite C. apply IH.
Qed.
Lemma z_tag c : ctag (zcmd c) = ctag c. Proof. destruct c; reflexivity. Qed.
Lemma z_dict d c : dict_set (map zcmd d) (zcmd c) = map zcmd (dict_set d c).
Proof. induction d as [|x d IH]; cbn [map dict_set]; [reflexivity|]. rewrite !z_tag. destruct (ctag x =? ctag c); cbn [map]; [reflexivity|]. rewrite IH. reflexivity. Qed.
Lemma z_squash l : squash (map zcmd l) = zcmd (squash l).
Proof.
  unfold squash. assert (E : forall l d, fold_left dict_set (map zcmd l) (map zcmd d) = map zcmd (fold_left dict_set l d)).
  { induction l0 as [|c l0 IH]; intros d; cbn [map fold_left]; [reflexivity|]. rewrite z_dict. apply IH. }
  assert (E1 := E l []). cbn [map] in E1. rewrite E1. destruct (fold_left dict_set l []) as [|c [|c2 r]]; reflexivity.
Qed.
Lemma z_lead s : lead (zst s) = (lead s * k)%Qc.
Proof. unfold lead. cbn [zst st_size st_spacing]. zz. Qed.
Lemma z_kerns a b : kerns_with (zst a) (zst b) = kerns_with a b.
Proof. unfold kerns_with. cbn [zst st_size st_font]. rewrite z_eq. reflexivity. Qed.
(** ** Fragments and words *)
Definition zslug (s : @slug QcNum) : @slug QcNum := mkSlug (sl_txt s) (sl_kern s) (sl_width s * k)%Qc (zst (sl_state s)).
Definition zseg (p : @slug QcNum * @command QcNum) := (zslug (fst p), zcmd (snd p)).
Definition zbox (b : @box QcNum) : @box QcNum := match b with BSlug s => BSlug (zslug s) | BMixed l st => BMixed (map zseg l) (zst st) end.
Definition zts (t : @tspace QcNum) : @tspace QcNum := @mkSpace QcNum (ts_width t * k)%Qc (ts_kern t) (ts_size t * k)%Qc.
Definition zword (w : @word QcNum) : @word QcNum := mkWord (map zbox (w_boxes w)) (option_map zts (w_tail w)) (zst (w_state w)).
Fixpoint zwl (w : @wordlike QcNum) : @wordlike QcNum := match w with WBox b => WBox (zbox b) | WWord w => WWord (zword w) | WCmd w c => WCmd (zwl w) (zcmd c) end.
Lemma z_slug t st p : slug_new t (zst st) p = zslug (slug_new t st p).
Proof. unfold slug_new, zslug. cbn [sl_txt sl_kern sl_width sl_state zst st_font st_size]. f_equal. zz. Qed.
Lemma z_slug_hyphen s : slug_with_hyphen (zslug s) = zslug (slug_with_hyphen s).
Proof. unfold slug_with_hyphen, zslug, slug_last. cbn [sl_txt sl_kern sl_width sl_state zst st_font st_size]. f_equal. zz. Qed.
Lemma z_slug_has s : slug_has_init_kern (zslug s) = slug_has_init_kern s. Proof. reflexivity. Qed.
Lemma z_slug_without s : slug_without_init_kern (zslug s) = zslug (slug_without_init_kern s).
Proof.
  unfold slug_without_init_kern. cbn [zslug sl_kern]. destruct (sl_kern s) as [|[[|n] x] r] eqn:E; [reflexivity| |reflexivity].
  unfold zslug. cbn [sl_txt sl_kern sl_width sl_state zst st_font st_size]. f_equal. zz.
Qed.
Lemma z_slug_indent s a : slug_indent (zslug s) (a * k)%Qc = rmap zslug (@slug_indent QcNum s a).
Proof.
  unfold slug_indent. rewrite z_truthy, z_slug_has. destruct (@ntruthy QcNum a); [|reflexivity]. destruct (slug_has_init_kern s); [reflexivity|].
  cbn [zslug sl_state zst st_size]. rewrite z_pdiv. destruct (@pdiv QcNum a (st_size (sl_state s))) as [q|e]; cbn [bind rmap]; [|reflexivity].
  unfold rmap, zslug. cbn [bind sl_txt sl_kern sl_width sl_state]. do 2 f_equal. zz.
Qed.
Lemma z_box_width b : box_width (zbox b) = (box_width b * k)%Qc.
Proof.
  destruct b as [s|l st]; [reflexivity|]. cbn [zbox box_width]. rewrite <- z_sum, !map_map. reflexivity.
Qed.
Lemma z_box_state b : box_state (zbox b) = zst (box_state b). Proof. destruct b; reflexivity. Qed.
Lemma z_segs_last l : segs_last (map zseg l) = segs_last l.
Proof. unfold segs_last. rewrite <- map_rev. destruct (rev l) as [|[s c] r]; reflexivity. Qed.
Lemma z_box_hyphen b : box_with_hyphen (zbox b) = zbox (box_with_hyphen b).
Proof.
  destruct b as [s|l st]; cbn [zbox box_with_hyphen]; [rewrite z_slug_hyphen; reflexivity|]. rewrite map_app, z_segs_last. cbn [map]. unfold zseg at 3. cbn [fst snd zcmd].
  rewrite z_slug. reflexivity.
Qed.
Lemma z_box_has b : box_has_init_kern (zbox b) = box_has_init_kern b.
Proof. destruct b as [s|[|[s c] l] st]; reflexivity. Qed.
Lemma z_box_without b : box_without_init_kern (zbox b) = zbox (box_without_init_kern b).
Proof. destruct b as [s|[|[s c] l] st]; cbn [zbox map zseg fst snd box_without_init_kern]; [rewrite z_slug_without; reflexivity|reflexivity|]. unfold zseg at 1. cbn [fst snd]. rewrite z_slug_without. reflexivity. Qed.
Lemma z_box_indent b a : box_indent (zbox b) (a * k)%Qc = rmap zbox (@box_indent QcNum b a).
Proof.
  destruct b as [s|[|[s c] l] st]; cbn [zbox map box_indent].
  - rewrite z_slug_indent. destruct (@slug_indent QcNum s a); reflexivity.
  - rewrite z_truthy. destruct (@ntruthy QcNum a); reflexivity.
  - rewrite z_truthy. destruct (@ntruthy QcNum a); [|reflexivity]. unfold zseg at 1. cbn [fst snd]. rewrite z_slug_indent. destruct (@slug_indent QcNum s a); reflexivity.
Qed.
Lemma z_ts_width t : tspace_width (zts t) = (tspace_width t * k)%Qc.
Proof. unfold tspace_width, zts. cbn [ts_width ts_kern ts_size]. zz. Qed.
Lemma z_ts_stretch t a st : tspace_stretch (zts t) (a * k)%Qc (zst st) = rmap zts (@tspace_stretch QcNum t a st).
Proof.
  unfold tspace_stretch. cbn [zst st_size]. rewrite z_pdiv. destruct (@pdiv QcNum a (st_size st)) as [q|e]; reflexivity.
Qed.
Lemma z_ts_new st p : tspace_new (zst st) p = zts (tspace_new st p).
Proof. unfold tspace_new, zts. cbn [ts_width ts_kern ts_size zst st_font st_size]. f_equal; zz. Qed.
Lemma z_ts_parse s st p : tspace_parse s (zst st) p = (fst (tspace_parse s st p), option_map zts (snd (tspace_parse s st p))).
Proof. unfold tspace_parse. destruct s as [|c s]; [reflexivity|]. destruct (str_last (c :: s) =? 32)%N; [|reflexivity]. cbn [fst snd option_map]. rewrite z_ts_new. reflexivity. Qed.
Lemma z_slugs parts st : forall p, slugs_new parts (zst st) p = rmap (map zbox) (slugs_new parts st p).
Proof.
  induction parts as [|[|c t] r IH]; intros p; cbn [slugs_new]; [reflexivity|reflexivity|]. rewrite IH. destruct (slugs_new r st _) as [bs|e]; cbn [bind rmap]; [|reflexivity].
  unfold rmap. cbn [bind map zbox]. rewrite z_slug. reflexivity.
Qed.
Lemma z_word s st p : word_new s (zst st) p = rmap zword (word_new s st p).
Proof.
  unfold word_new. rewrite z_ts_parse. destruct (tspace_parse s st p) as [s' tl]. cbn [fst snd]. cbn [zst st_hyphens].
  destruct (into_syllables s' _) as [parts|e]; cbn [bind]; [|reflexivity]. change (mkState _ _ _ _ _) with (zst st). rewrite z_slugs.
  destruct (slugs_new parts st p) as [bs|e]; reflexivity.
Qed.
Lemma z_word_has w : word_has_init_kern (zword w) = word_has_init_kern w.
Proof. destruct w as [[|b r] [t|] st]; cbn [zword w_boxes w_tail map option_map word_has_init_kern]; try apply z_box_has; reflexivity. Qed.
Lemma z_word_without w : word_without_init_kern (zword w) = zword (word_without_init_kern w).
Proof.
  destruct w as [[|b r] tl st]; unfold zword, word_without_init_kern; cbn [w_boxes w_tail w_state map].
  - destruct tl as [t|]; cbn [option_map]; [|reflexivity]. cbn [zts ts_kern]. destruct (ntruthy (ts_kern t)); reflexivity.
  - rewrite z_box_has. destruct (box_has_init_kern b); [|reflexivity]. cbn [w_boxes w_tail w_state map]. rewrite z_box_without. reflexivity.
Qed.
Lemma z_pruned_width w : word_pruned_width (zword w) = (word_pruned_width w * k)%Qc.
Proof. unfold word_pruned_width. cbn [zword w_boxes]. rewrite <- z_sum, !map_map. f_equal. apply map_ext. apply z_box_width. Qed.
Lemma z_prunable w : word_prunable (zword w) = (word_prunable w * k)%Qc.
Proof. unfold word_prunable. cbn [zword w_tail]. destruct (w_tail w); cbn [option_map]; [apply z_ts_width|apply z_0]. Qed.
Lemma z_word_width w : word_width (zword w) = (word_width w * k)%Qc.
Proof.
  unfold word_width. rewrite z_pruned_width. fold (word_prunable (zword w)). fold (word_prunable w). rewrite z_prunable. zz.
Qed.
Lemma z_word_pruned w : word_pruned (zword w) = zword (word_pruned w).
Proof. destruct w as [bs [t|] st]; reflexivity. Qed.
Definition zhyph (x : list (@box QcNum) * @state QcNum * @box QcNum * list (@box QcNum)) :=
  let '(f, st, nb, r) := x in (map zbox f, zst st, zbox nb, map zbox r).
Lemma z_hyph_loop rest : forall b space fitting, hyph_loop (zbox b) (map zbox rest) (space * k)%Qc (map zbox fitting) = rmap zhyph (hyph_loop b rest space fitting).
Proof.
  induction rest as [|nb r IH]; intros b space fitting; cbn [hyph_loop map]; [reflexivity|]. rewrite !z_box_hyphen, !z_box_width.
  replace (@nsub QcNum (space * k)%Qc (box_width b * k)%Qc) with (@nsub QcNum space (box_width b) * k)%Qc by zz. rewrite z_lt.
  destruct (nltb _ _).
  - unfold rmap. cbn [bind zhyph]. rewrite map_app, z_box_state. reflexivity.
  - rewrite <- IH, map_app. reflexivity.
Qed.
Definition zpair (p : option (@word QcNum) * @word QcNum) := (option_map zword (fst p), zword (snd p)).
Lemma z_word_hyphenate w space : word_hyphenate (zword w) (space * k)%Qc = rmap zpair (word_hyphenate w space).
Proof.
  unfold word_hyphenate. rewrite z_word_without. destruct w as [[|b r] tl st]; cbn [zword w_boxes w_tail w_state map]; [reflexivity|].
  rewrite z_box_hyphen, z_box_width, z_lt. destruct (nltb _ _); [reflexivity|]. assert (E := z_hyph_loop r b space []). cbn [map] in E. rewrite E.
  destruct (hyph_loop b r space []) as [[[[f s] nb] r2]|e]; cbn [rmap bind zhyph]; [|reflexivity]. unfold rmap, zpair, zword. cbn [bind fst snd option_map w_boxes w_tail w_state map].
  rewrite z_box_without. reflexivity.
Qed.
Lemma z_word_minimal w : word_minimal (zword w) = (zword (fst (word_minimal w)), option_map zword (snd (word_minimal w))).
Proof.
  destruct w as [[|b [|b2 r]] tl st]; unfold word_minimal, zword; cbn [w_boxes w_tail w_state map fst snd option_map]; [reflexivity|reflexivity|].
  rewrite z_box_hyphen, z_box_without, z_box_state. reflexivity.
Qed.
Lemma z_word_indent w a : word_indent (zword w) (a * k)%Qc = rmap zword (@word_indent QcNum w a).
Proof.
  unfold word_indent. rewrite z_truthy. destruct (@ntruthy QcNum a); [|reflexivity]. destruct w as [[|b r] [t|] st]; cbn [zword w_boxes w_tail w_state map option_map].
  - rewrite z_ts_stretch. destruct (@tspace_stretch QcNum t a st); reflexivity.
  - reflexivity.
  - rewrite z_box_indent. destruct (@box_indent QcNum b a); reflexivity.
  - rewrite z_box_indent. destruct (@box_indent QcNum b a); reflexivity.
Qed.
Lemma z_word_extend w a : word_extend_tail (zword w) (a * k)%Qc = rmap zword (@word_extend_tail QcNum w a).
Proof.
  unfold word_extend_tail. rewrite z_truthy. destruct w as [bs [t|] st]; cbn [zword w_tail w_boxes w_state option_map]; [|reflexivity].
  destruct (@ntruthy QcNum a); [|reflexivity]. rewrite z_ts_stretch. destruct (@tspace_stretch QcNum t a st); reflexivity.
Qed.
End Scale.
