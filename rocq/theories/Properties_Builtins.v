(** * Metrics: C66-C68 *)
From Coq Require Import String QArith Qcanon.
From Verif Require Import Base Gfmt Atoms PdfSpec FontProofs Num Fonts FontSpec BuiltinTables Builtins Properties_Fonts.
Local Open Scope list_scope.
Open Scope Z_scope.

Lemma dictget_cases {A} (t : list (N * A)) d c : dictget t d c = d \/ In (c, dictget t d c) t.
Proof.
  induction t as [|[k v] t IH]; [left; reflexivity|]. cbn [dictget]. destruct (N.eqb_spec k c) as [->|_]; [right; left; reflexivity|].
  destruct IH as [->|I]; [left; reflexivity|right; right; exact I].
Qed.

(** ** C68.  Kerning never takes a character of a standard font back: its width, kerned
    with any character before it, is positive; so is the width kerned with any character
    after it. *)
Definition kern_ok (m : list (N * Z) * Z * list (N * list (N * Z))) : bool :=
  let '(w, d, k) := m in
  forallb (fun p => 0 <? snd p) w && (0 <? d)
  && forallb (fun r => forallb (fun p => (0 <? dictget w d (fst p) + snd p) && (0 <? dictget w d (fst r) + snd p)) (snd r)) k.
Lemma kern_ok_spec m : kern_ok m = true ->
  match of_table m with
  | (width, Some kern) => forall a c, 0 < width c + kern a c /\ 0 < width a + kern a c /\ 0 < width c
  | _ => False
  end.
Proof.
  destruct m as [[w d] k]. cbn [kern_ok of_table]. rewrite !andb_true_iff. intros [[W D] K] a c. rewrite forallb_forall in W, K. apply Z.ltb_lt in D.
  assert (P : forall x, 0 < dictget w d x).
  { intros x. destruct (dictget_cases w d x) as [->|I]; [exact D|]. apply W in I. apply Z.ltb_lt in I. exact I. }
  unfold kernget. destruct (dictget_cases k [] a) as [->|I]; [cbn [dictget]; rewrite !Z.add_0_r; auto|].
  apply K in I. cbn [fst snd] in I. rewrite forallb_forall in I.
  destruct (dictget_cases (dictget k [] a) 0 c) as [->|J]; [rewrite !Z.add_0_r; auto|]. apply I in J. cbn [fst snd] in J.
  apply andb_true_iff in J as [J1 J2]. apply Z.ltb_lt in J1, J2. auto.
Qed.
Theorem C68_kerning_keeps_direction : forall b bold italic a c,
  0 < builtin_width b bold italic c + builtin_kern b bold italic a c
  /\ 0 < builtin_width b bold italic a + builtin_kern b bold italic a c
  /\ 0 < builtin_width b bold italic c.
Proof.
  assert (T : forallb kern_ok [metrics_Helvetica; metrics_Helvetica_Bold; metrics_Helvetica_Oblique; metrics_Helvetica_BoldOblique;
    metrics_Times_Roman; metrics_Times_Bold; metrics_Times_Italic; metrics_Times_BoldItalic] = true) by (vm_compute; reflexivity).
  rewrite forallb_forall in T.
  intros b bold italic a c. unfold builtin_width, builtin_kern.
  destruct b; try (cbn; lia); destruct bold, italic; cbn [builtin_metrics pick4];
    match goal with |- context[of_table ?m] =>
      assert (X := kern_ok_spec m (T m ltac:(cbn [In]; tauto))); destruct (of_table m) as [w [k|]]; [apply X|destruct X] end.
Qed.
Print Assumptions C68_kerning_keeps_direction.
Example C68_example : builtin_kern Helvetica false false 76 8217 = -160 /\ builtin_width Helvetica false false 8217 = 222.
Proof. split; reflexivity. Qed.
Lemma pos_sum a b : 0 < a + b -> (0 < nZ (NUM := QcNum) a + nZ (NUM := QcNum) b)%Qc.
Proof.
  intros H. unfold Qclt. change (Qlt 0 (Qred (Qred (inject_Z a) + Qred (inject_Z b)))).
  rewrite !Qred_correct, <- inject_Z_plus. unfold Qlt. cbn [Qnum Qden inject_Z]. lia.
Qed.
(** In terms of the fonts of a document (exact rationals): *)
Corollary C68_charkern : forall (ENV : Env QcNum), standard_metrics ENV -> forall f a c, is_builtin f = true ->
  (0 < charwidth f c + charkern f a c)%Qc.
Proof.
  intros ENV S [[b|] x y] a c B; [|discriminate]. destruct (S b x y) as (W & K). unfold charkern. rewrite W.
  destruct (C68_kerning_keeps_direction b x y a c) as (P & _ & P0). unfold builtin_kern in P.
  destruct (snd (builtin_metrics b x y)) as [k|], (kerntab _) as [t|]; try contradiction.
  - rewrite K. apply pos_sum, P.
  - apply (pos_sum _ 0), P.
Qed.
Print Assumptions C68_charkern.

(** ** C67.  The character a byte shows with WinAnsiEncoding (PDF 32000-1, annex D; the
    bytes 0x80-0x9f of cp1252): *)
Definition shown_char (b : byte) : char :=
  if (b <? 128)%N then b else match find (fun p => (fst p =? b)%N) cp1252_high with Some p => snd p | None => b end.
(** Characters with a width in the tables that are not in cp1252; they are shown as "?" *)
Definition not_shown : list char :=
  [305; 321; 322; 711; 769; 771; 772; 774; 775; 776; 778; 779; 807; 808; 956; 8260; 8722; 64257; 64258]%N.
(** The width used for every other character is that of the character shown, in all fonts *)
Definition table_ok (m : list (N * Z) * Z * list (N * list (N * Z))) : bool :=
  let '(w, d, _) := m in
  (dictget w d 63 =? d) &&
  forallb (fun p => existsb (N.eqb (fst p)) not_shown || (shown_char (cp1252_char (fst p)) =? fst p)%N) w.
Lemma shown_self c : cp1252_char c <> 63%N -> shown_char (cp1252_char c) = c.
Proof.
  unfold cp1252_char. destruct ((c <? 128) || ((160 <=? c) && (c <? 256)))%N eqn:R; intros NQ.
  - unfold shown_char. destruct (N.ltb_spec c 128) as [L|L]; [reflexivity|]. destruct (find _ cp1252_high) as [p|] eqn:F; [|reflexivity].
    apply find_some in F as (I & E). apply N.eqb_eq in E. exfalso.
    assert (X : forallb (fun p => (fst p <? 160)%N) cp1252_high = true) by reflexivity. rewrite forallb_forall in X. apply X in I. apply N.ltb_lt in I.
    cbn [orb] in R. apply andb_true_iff in R as [R _]. apply N.leb_le in R. lia.
  - destruct (find _ cp1252_high) as [p|] eqn:F; [|congruence]. apply find_some in F as (I & E). apply N.eqb_eq in E. subst c.
    assert (X : forallb (fun p => (shown_char (fst p) =? snd p)%N) cp1252_high = true) by reflexivity. rewrite forallb_forall in X. apply X in I.
    apply N.eqb_eq in I. exact I.
Qed.
Lemma table_ok_spec m : table_ok m = true -> forall c, ~ In c not_shown ->
  fst (of_table m) c = fst (of_table m) (shown_char (cp1252_char c)).
Proof.
  destruct m as [[w d] k]. cbn [table_ok of_table fst]. rewrite andb_true_iff. intros [D T] c N. rewrite forallb_forall in T. apply Z.eqb_eq in D.
  destruct (N.eq_dec (cp1252_char c) 63) as [E|E]; [|rewrite shown_self by exact E; reflexivity].
  rewrite E. change (shown_char 63) with 63%N. rewrite D. destruct (dictget_cases w d c) as [->|I]; [reflexivity|].
  apply T in I. cbn [fst] in I. apply orb_true_iff in I as [I|I].
  - apply existsb_exists in I as (x & I & E2). apply N.eqb_eq in E2. subst x. contradiction.
  - rewrite E in I. change (shown_char 63) with 63%N in I. apply N.eqb_eq in I. rewrite <- I. exact D.
Qed.
Theorem C67_measured_as_shown_partial : forall b bold italic c, ~ In c not_shown ->
  builtin_width b bold italic c = builtin_width b bold italic (shown_char (cp1252_char c)).
Proof.
  assert (T : forallb table_ok [metrics_Helvetica; metrics_Helvetica_Bold; metrics_Helvetica_Oblique; metrics_Helvetica_BoldOblique;
    metrics_Times_Roman; metrics_Times_Bold; metrics_Times_Italic; metrics_Times_BoldItalic] = true) by (vm_compute; reflexivity).
  rewrite forallb_forall in T.
  intros b bold italic c N. unfold builtin_width. destruct b; try reflexivity; destruct bold, italic; cbn [builtin_metrics pick4];
    (apply table_ok_spec; [apply T; cbn [In]; tauto|exact N]).
Qed.
Print Assumptions C67_measured_as_shown_partial.
Example C67_example : ~ In 8364%N not_shown /\ ~ In 9731%N not_shown /\ cp1252_char 9731 = 63%N
  /\ builtin_width Helvetica false false 9731 = builtin_width Helvetica false false 63.
Proof. repeat split; try reflexivity; cbn; intuition discriminate. Qed.
(** The exceptions are real: "-" (U+2212) is shown as "?" but measured otherwise in all
    Helvetica and Times fonts; and a no-break space, shown as a space (byte 160, annex D.2 note 6),
    is measured as "?". *)
Theorem C67_measured_as_shown_refuted :
  (forall b bold italic, b = Helvetica \/ b = TimesRoman ->
     shown_char (cp1252_char 8722) = 63%N /\ builtin_width b bold italic 8722 <> builtin_width b bold italic 63)
  /\ (forall b bold italic, b = Helvetica \/ b = TimesRoman ->
     cp1252_char 160 = 160%N /\ builtin_width b bold italic 160 <> builtin_width b bold italic 32).
Proof.
  split; intros b x y [->| ->]; (split; [reflexivity|]); destruct x, y; vm_compute; discriminate.
Qed.
Print Assumptions C67_measured_as_shown_refuted.

(** ** C66.  The width written for a code of an embedded font is the width used for
    layout without its fraction: it is less, by less than one unit (of a thousandth of the
    font size); it is the same if (and only if) the width is an integer. *)
Lemma trunc_spec (w : Qc) : (0 <= w)%Qc ->
  (nZ (NUM := QcNum) (ntrunc (w : @num QcNum)) <= w)%Qc /\ (w < nZ (NUM := QcNum) (ntrunc (w : @num QcNum)) + 1)%Qc.
Proof.
  intros P. unfold Qcle in P. unfold Qcle, Qclt. destruct w as [[n d] C]. cbn [this] in *.
  change (nZ (NUM := QcNum) ?z) with (Q2Qc (inject_Z z)). change (this (Q2Qc (inject_Z ?z) + 1)%Qc) with (Qred (Qred (inject_Z z) + 1)).
  change (this (Q2Qc (inject_Z ?z))) with (Qred (inject_Z z)). rewrite !Qred_correct.
  change (ntrunc _) with (Z.quot n (Zpos d)). unfold Qle, Qlt in *. cbn [Qnum Qden inject_Z Qplus this Q2Qc] in *. cbn in P.
  assert (0 <= n) by lia. rewrite Z.quot_div_nonneg by lia. pose proof (Z.div_mod n (Zpos d) ltac:(lia)). pose proof (Z.mod_pos_bound n (Zpos d) ltac:(lia)). lia.
Qed.
Theorem C66_widths_partial : forall (ENV : Env QcNum) (f : font) (t : ttf) (hist : list str) outs m id objs c i,
  encodes cids_empty hist = (outs, m) -> subset_objects f t m id = Ok objs -> In (c, i) (cm_entries m) ->
  (0 <= charwidth f c)%Qc ->
  exists dict w z, obj_lookup (id + 1) objs = Some dict /\ dict_lookup (bs "W") dict = Some (AArr w)
  /\ w_lookup w (N.to_nat i) = Some z
  /\ (nZ (NUM := QcNum) z <= charwidth f c)%Qc /\ (charwidth f c < nZ (NUM := QcNum) z + 1)%Qc.
Proof.
  intros ENV f t hist outs m id objs c i E S I P.
  destruct (C15_tables_indexed_by_code _ _ f t hist outs m id objs c i E S I) as (dict & w & _ & H1 & H2 & H3 & _).
  exists dict, w, (ntrunc (charwidth f c)). split; [exact H1|]. split; [exact H2|]. split; [exact H3|]. apply trunc_spec, P.
Qed.
Print Assumptions C66_widths_partial.

Lemma C66_integer : forall (w : Qc) (z : Z), (nZ (NUM := QcNum) z <= w)%Qc -> (w < nZ (NUM := QcNum) z + 1)%Qc ->
  forall y, w = nZ (NUM := QcNum) y -> z = y.
Proof.
  intros w z A B y ->. change (nZ (NUM := QcNum) ?z) with (Q2Qc (inject_Z z)) in *. unfold Qcle, Qclt in *.
  change (this (Q2Qc (inject_Z ?z) + 1)%Qc) with (Qred (Qred (inject_Z z) + 1)) in *.
  change (this (Q2Qc (inject_Z ?z))) with (Qred (inject_Z z)) in *. rewrite !Qred_correct in *. change 1%Q with (inject_Z 1) in B.
  rewrite <- inject_Z_plus in B. unfold Qle, Qlt in *. cbn [Qnum Qden inject_Z] in *. lia.
Qed.
(** a font with 2048 units per em: 1139 units are 556.15... thousandths *)
#[local] Instance half_env : Env QcNum :=
  {| charwidth := fun _ _ => Q2Qc (1139 * 1000 # 2048); kerntab := fun _ => None; hyphenator := fun _ s => [s];
     is_wordchar := fun _ => true |}.
Theorem C66_widths_refuted :
  exists (f : font) m objs dict, m = snd (encodes cids_empty [[72; 105]%N]) /\ subset_objects f ex_ttf m 9 = Ok objs
  /\ obj_lookup 10 objs = Some dict /\ dict_lookup (bs "W") dict = Some (AArr [AInt 0; AArr [AInt 556; AInt 556]])
  /\ charwidth f 72%N <> nZ (NUM := QcNum) 556.
Proof.
  exists (mkFont (TTrue 1 2 3 4) false false). do 3 eexists. split; [reflexivity|]. split; [reflexivity|]. split; [reflexivity|].
  split; [reflexivity|]. vm_compute. discriminate.
Qed.
Print Assumptions C66_widths_refuted.
