(** * C91: in doubles, first-fit line breaking never fails.  When a word does not fit, pdfje
    looks for a place to hyphenate it by subtracting the widths of its fragments one after the
    other; it raises [RuntimeError] when all of them turn out to fit.  With rounded sums that
    could happen; it does not, because a hyphen is wider than the errors of a word. *)
From Coq Require Import ZArith QArith Bool Reals Qreals String.
From Flocq Require Import Core IEEE754.BinarySingleNaN.
From Verif Require Import Base Num Float64 FloatProofs NumInstances RoundErr Fonts State TextSpec StateProofs
  Words WordsSpec WordProofs WordOps Parse Firstfit FirstfitProofs LineSpec Common FontsUsed Layout OptimumTotal Properties_Optimum LayoutTotal Builtins BuiltinTables Properties_Words
  Properties_Builtins Properties_Firstfit FloatLines FloatWidths FloatText FloatPara FloatTotal LawTotal LawRules FloatRules SuccessProofs ShortWords LayoutPages LayoutSpec NumLaws LayoutLaws LayoutProofs Render Draw PlainDoc Style Properties_Plain Properties_Float Properties_Round.
From Coq Require Import Lra Lia.
Local Open Scope string_scope. Local Open Scope list_scope.
Open Scope R_scope.
Local Notation real x := (@B2R 53 1024 x).
Local Notation finite x := (@is_finite 53 1024 x = true).

(** the hyphen, kerned after any character, advances by at least [u] thousandths of the size *)
Definition hyphens_advance (pow : b64 -> nat -> b64) (ENV : Env (Float64 pow)) (u : R) : Prop :=
  forall f a, u <= real (@charwidth (Float64 pow) ENV f 45%N) + real (@charkern (Float64 pow) ENV f a 45%N).

Theorem C91_first_fit_never_fails : forall pow (ENV : Env (Float64 pow)) (M Smin Smax : R) (g k : Z) (n m : nat) (u : R)
    ps st cmd ws ex (indent : @num (Float64 pow)) (cols : nat -> @num (Float64 pow) * @num (Float64 pow)) ae (lead : @num (Float64 pow)) av justified,
  ample M Smax g k n -> 0 < Smin ->
  metrics_within pow M -> 0 <= u -> hyphens_advance pow ENV u -> @all_split (Float64 pow) ENV ->
  psg_in (size_within pow Smin Smax) ps -> st_in (size_within pow Smin Smax) st ->
  finite indent -> 2000 * Rabs (real indent) <= M * Smin ->
  into_words ps st = Ok (cmd, ws, ex) ->
  Forall (fun w => Forall (fun b => (fragment_length pow b <= n)%nat) (wl_boxes w)) ws ->
  Forall (fun w => (List.length (wl_boxes w) + 2 <= m)%nat) ws -> 2 * (INR m * point_error Smax g k n) <= u / 1000 * Smin ->
  (forall i, finite (fst (cols i))
     /\ Rabs (real (fst (cols i))) + INR (pieces pow ws) * (fragment_most M Smax n + point_error Smax g k n) <= bpow radix2 k) ->
  finite lead -> 0 < real lead -> (forall i, finite (snd (cols i)) /\ 0 <= real (snd (cols i)) < IZR (2 ^ 50) * real lead) ->
  exists ws', indent_first ws indent = Ok ws'
    /\ exists n0, forall fuel, (n0 <= fuel)%nat -> exists cs, ff_shape fuel ws' cols ae lead av justified = Ok cs.
Proof.
  intros pow ENV M Smin Smax g k n m u ps st cmd ws ex x cols ae lead av j (A1 & A2 & A3 & A4 & A5 & A6 & A7) SM (W & K) U0 HY SP P S FX HX E L LM HM C FL L0 H.
  exact (para_total_near pow M Smin Smax g k n m u ps st cmd ws ex x cols ae lead av j A1 A2 W K A4 A3 A5 A6 A7 SM U0 HY FX HX SP P S E L LM HM C FL L0 H).
Qed.
Print Assumptions C91_first_fit_never_fails.

(** ** Whole pages, with numbers as in C90: text of 6 to 24 points, glyphs of at most 8 em,
    fragments of at most 32 characters, words of at most 200 fragments, at most 10000 pieces
    in a line of the source, columns of at most 10000 points, a hyphen of at least 1/1000 em. *)
Definition modest_text (pow : b64 -> nat -> b64) (ENV : Env (Float64 pow)) (line : list (@passage (Float64 pow))) : Prop :=
  forall st cmd ws ex, into_words line st = Ok (cmd, ws, ex) ->
    Forall (fun w => Forall (fun b => (fragment_length pow b <= 32)%nat) (wl_boxes w)) ws
    /\ Forall (fun w => (Z.of_nat (List.length (wl_boxes w)) <= 200)%Z) ws
    /\ (Z.of_nat (pieces pow ws) <= 10000)%Z.
Definition modest_para (pow : b64 -> nat -> b64) (ENV : Env (Float64 pow)) (h : b64) (base : @full (Float64 pow)) (p : @para (Float64 pow)) : Prop :=
  p_optimal p = None
  /\ finite (p_indent p) /\ Rabs (real (p_indent p)) <= 24
  /\ types_in (size_within pow 6 24) base (ISpan (p_style p) (p_content p))
  /\ finite (para_lead base p) /\ 1 <= real (para_lead base p) <= real h
  /\ Forall (modest_text pow ENV) (splitlines (flatten (full_or base (p_style p)) (p_style p) (p_content p))).
Definition modest_columns (pow : b64 -> nat -> b64) (h : b64) (template : Z -> @page (Float64 pow) (@drawing (Float64 pow))) : Prop :=
  forall n, pg_columns (template n) <> [] /\
    Forall (fun c : @column (Float64 pow) => finite (c_height c) /\ real h <= real (c_height c) <= 10000
      /\ finite (c_width c) /\ 0 <= real (c_width c) <= 10000) (pg_columns (template n)).
(** Paragraphs as above, and rules whose margins add up to at most 10000 *)
Definition modest_block (pow : b64 -> nat -> b64) (ENV : Env (Float64 pow)) (h : b64) (base : @full (Float64 pow)) (b : @block (Float64 pow)) : Prop :=
  match b with
  | BPara p => modest_para pow ENV h base p
  | BRule _ m => let t := @nadd (Float64 pow) (s_top m) (s_bottom m) in finite t /\ 0 <= real t <= 10000
  end.

Lemma numbers : 0 <= point_error 24 20 27 32 <= / 100000 /\ ample 8000 24 20 27 32
  /\ 10000 + INR (Z.to_nat 10000) * (fragment_most 8000 24 32 + point_error 24 20 27 32) <= bpow radix2 27
  /\ 2 * (INR (Z.to_nat 202) * point_error 24 20 27 32) <= 1 / 1000 * 6.
Proof.
  assert (PE : 0 <= point_error 24 20 27 32 <= / 100000).
  { unfold point_error. change (20 - 53)%Z with (- (33))%Z. change (27 - 53)%Z with (- (26))%Z. rewrite !pow2n by lia.
    replace (INR (11 * 32 + 30)) with 382 by (rewrite INR_IZR_INZ; reflexivity). cbn [Z.pow Z.pow_pos Pos.iter]. cbn -[IZR Rplus Rmult Rinv Rle]. split; lra. }
  split; [exact PE|]. split.
  - unfold ample. change (20 - 53)%Z with (- (33))%Z. change (27 - 53)%Z with (- (26))%Z. rewrite !pow2n, !pow2 by lia.
    replace (INR (2 * 32 + 8)) with 72 by (rewrite INR_IZR_INZ; reflexivity). replace (INR (12 * 32 + 60)) with 444 by (rewrite INR_IZR_INZ; reflexivity).
    cbn -[IZR Rplus Rmult Rinv Rle Z.le]. repeat split; try lia; lra.
  - split.
    + rewrite pow2 by lia. change (2 ^ 27)%Z with 134217728%Z. unfold fragment_most. rewrite INR_IZR_INZ, Z2Nat.id by lia.
      replace (INR (2 * 32 + 4)) with 68 by (rewrite INR_IZR_INZ; reflexivity). lra.
    + rewrite INR_IZR_INZ, Z2Nat.id by lia. lra.
Qed.
Section Fine.
Context (pow : b64 -> nat -> b64) {ENV : Env (Float64 pow)}.
Variables (h H : @num (Float64 pow)).
Hypothesis HY : @all_split (Float64 pow) ENV.
Hypothesis MW : metrics_within pow 8000.
Hypothesis HA : hyphens_advance pow ENV 1.
Hypothesis Fh : finite h.
Hypothesis FH : finite H.
Hypothesis H0 : 0 <= real h.
Hypothesis VH : real H = 10000.
Notation A := (fun _ : @para (Float64 pow) => FloatTotal.modest pow 32 (Z.to_nat 202) (Z.to_nat 10000)).
Notation D := (suitable pow 8000 24 20 27 32 (Z.to_nat 10000)).
Lemma fine_modest (R : @num (Float64 pow) -> @tline (Float64 pow) -> Prop) base p : modest_para pow ENV h base p ->
  (forall lead, @lays (Float64 pow) ENV R (FloatPara.sized pow 6 24) (A p) D p lead) -> @fine (Float64 pow) ENV fin R (FloatPara.sized pow 6 24) A D h H base p.
Proof.
  intros (FF & FX & HX & T & FL & L & MT) LY. destruct numbers as (PE & (N1 & N2 & N3 & N4 & N5 & N6 & N7) & NC & NH). destruct MW as (MW1 & MW2).
  destruct (nZ64 pow 0 ltac:(lia)) as (F0 & V0). change (@nZ (Float64 pow) 0) with (@n0 (Float64 pow)) in *.
  split; [exact T|]. split.
  { split; [|apply le64; auto; apply L]. split; [exact FL|]. split; [apply lt64; auto; rewrite V0; unfold val; lra|].
    apply most64; auto; unfold val; [lra|]. rewrite VH. change (2 ^ 50)%Z with 1125899906842624%Z. lra. }
  split.
  { eapply Forall_impl; [|exact MT]. intros l M st cmd ws ex E. destruct (M st cmd ws ex E) as (M1 & M2 & M3).
    split; [exact M1|]. split; [eapply Forall_impl; [|exact M2]; cbn beta; intros; lia|]. change (FloatPara.frags pow ws) with (pieces pow ws). lia. }
  split; [|apply LY].
  apply (modest_breaks pow 8000 6 24 20 27 32 (Z.to_nat 202) 1 (Z.to_nat 10000)); auto; try lra.
  - unfold val. lra.
  - unfold val. lra.
  - unfold val. rewrite VH. change (2 ^ 50)%Z with 1125899906842624%Z. lra.
Qed.
Lemma template_modest template : modest_columns pow h template -> @template_ok (Float64 pow) fin D h H template.
Proof.
  intros T n. destruct (T n) as (T1 & T2). split; [exact T1|]. destruct numbers as (PE & _ & NC & NH).
  eapply Forall_impl; [|exact T2]. intros c (C1 & (C2 & C3) & C4 & C5 & C6).
  split; [exact C1|]. split; [apply le64; auto|]. split; [apply le64; auto; unfold val; lra|].
  split; [exact C4|]. split; [exact C5|]. eapply Rle_trans; [|exact NC]. apply Rplus_le_compat_r. exact C6.
Qed.
Lemma lines_fine (R : @num (Float64 pow) -> @tline (Float64 pow) -> Prop) base p :
  @fine (Float64 pow) ENV fin R (FloatPara.sized pow 6 24) A D h H base p -> p_optimal p = None ->
  @can_fill (Float64 pow) ENV fin h H (FloatPara.sized pow 6 24) A D base p /\ @lays (Float64 pow) ENV R (FloatPara.sized pow 6 24) (A p) D p (para_lead base p).
Proof. intros (T & L & G & B & LY) PO. split; [|exact LY]. split; [exact T|]. split; [exact L|]. split; [exact G|]. split; [exact B|exact PO]. Qed.
Notation RULES F := (F (Float64 pow) ENV fin (Float64_lawful pow) rest_ok rule_ok h H).
Lemma block_can base b : modest_block pow ENV h base b ->
  @can_block (Float64 pow) ENV fin rule_ok h H (FloatPara.sized pow 6 24) A D base b.
Proof.
  destruct b as [p|c m]; cbn [modest_block can_block]; intros B; [|exact B].
  apply (lines_fine (fun _ _ => True)); [|apply B]. apply fine_modest; [exact B|]. intros lead. red. intros. apply Forall_forall. auto.
Qed.
Lemma rule_positive (t : @num (Float64 pow)) : rule_ok t -> fin t /\ @le (Float64 pow) n0 t.
Proof.
  intros (F & L & _). split; [exact F|]. destruct (nZ64 pow 0 ltac:(lia)) as (F0 & V0). change (@nZ (Float64 pow) 0) with (@n0 (Float64 pow)) in *.
  apply le64; [exact F0|exact F|]. rewrite V0. exact L.
Qed.
Lemma below_zero (t : @num (Float64 pow)) : finite t -> 0 <= real t -> @le (Float64 pow) n0 t.
Proof.
  intros F L. destruct (nZ64 pow 0 ltac:(lia)) as (F0 & V0). change (@nZ (Float64 pow) 0) with (@n0 (Float64 pow)) in *. apply le64; [exact F0|exact F|]. rewrite V0. exact L.
Qed.
Lemma ends_modest base blocks template pnum : modest_columns pow h template -> Forall (modest_block pow ENV h base) blocks ->
  exists n x, forall fuel, (n <= fuel)%nat -> auto_loop fuel blocks base (fun i => pf_new (template (pnum + Z.of_nat i)%Z)) = Ok x.
Proof.
  intros T B. destruct numbers as (PE & _).
  apply (@loop_found (Float64 pow) ENV fin (Float64_lawful pow) rest_ok rule_ok h H Fh FH (below_zero h Fh H0)
    (below_zero H FH ltac:(rewrite VH; lra)) (height_rest pow H FH VH) rule_positive (rest_sub pow) (over_none pow H FH VH) (zero_none pow H FH VH)
    (fun _ _ => True) (FloatPara.sized pow 6 24) A D HY (FloatTotal.sized_nz pow 6 24 32 ltac:(lia) ltac:(lra))).
  - apply template_modest, T.
  - eapply Forall_impl; [|exact B]. intros b. apply block_can.
Qed.
Lemma no_col_suitable : D (cf_box (@no_col (Float64 pow))).
Proof.
  destruct (nZ64 pow 0 ltac:(lia)) as (F0 & V0). change (@nZ (Float64 pow) 0) with (@n0 (Float64 pow)) in *. destruct numbers as (_ & _ & NC & _).
  cbn [no_col cf_box]. split; [exact F0|]. cbn [c_width]. split; [rewrite V0; lra|]. rewrite V0. eapply Rle_trans; [|exact NC]. apply Rplus_le_compat_r. lra.
Qed.
Lemma lines_modest (R : @num (Float64 pow) -> @tline (Float64 pow) -> Prop) fuel base blocks template pnum pages :
  modest_columns pow h template -> Forall (modest_block pow ENV h base) blocks ->
  (forall p, In (BPara p) blocks -> forall lead, @lays (Float64 pow) ENV R (FloatPara.sized pow 6 24) (A p) D p lead) ->
  auto_pages fuel blocks template base pnum = Ok pages -> Forall (fun p => Forall (lines_fit R) (snd p)) pages.
Proof.
  intros T B L E.
  apply (@pages_lines (Float64 pow) ENV fin (Float64_lawful pow) rule_ok h H Fh FH (below_zero h Fh H0) R (FloatPara.sized pow 6 24) A D
    fuel base blocks template pnum pages); [exact no_col_suitable|apply template_modest, T| | |exact E].
  - eapply Forall_impl; [|exact B]. intros b. apply block_can.
  - apply Forall_forall. intros [p|c m] I; cbn [lays_block]; [apply L, I|exact Logic.I].
Qed.
End Fine.

Theorem C91_pages_never_fail : forall pow (ENV : Env (Float64 pow)) (blocks : list (@block (Float64 pow)))
    (template : Z -> @page (Float64 pow) (@drawing (Float64 pow))) base pnum (h : b64),
  @all_split (Float64 pow) ENV -> metrics_within pow 8000 -> hyphens_advance pow ENV 1 ->
  finite h -> 0 <= real h -> modest_columns pow h template -> Forall (modest_block pow ENV h base) blocks ->
  exists n pages, forall fuel, (n <= fuel)%nat -> auto_pages fuel blocks template base pnum = Ok pages.
Proof.
  intros pow ENV blocks template base pnum h HY MW HA Fh H0 T B.
  destruct (nZ64 pow 10000 ltac:(lia)) as (FH & VH).
  destruct (ends_modest pow h (@nZ (Float64 pow) 10000) HY MW HA Fh FH H0 VH base blocks template pnum T B) as (n & x & E).
  exists n. eexists. intros fuel L. unfold auto_pages. rewrite (E fuel L). cbn [bind]. reflexivity.
Qed.
Print Assumptions C91_pages_never_fail.
(** and, unless a paragraph is justified, every line on every page fits its column up to
    rounding errors (or is a single fragment: an overlong word that cannot be hyphenated) *)
Theorem C90_pages_fit : forall pow (ENV : Env (Float64 pow)) fuel (blocks : list (@block (Float64 pow)))
    (template : Z -> @page (Float64 pow) (@drawing (Float64 pow))) base pnum (h : b64) pages,
  @all_split (Float64 pow) ENV -> metrics_within pow 8000 -> hyphens_advance pow ENV 1 ->
  finite h -> 0 <= real h -> modest_columns pow h template -> Forall (modest_block pow ENV h base) blocks ->
  (forall p, In (BPara p) blocks -> is_justify (p_align p) = false) ->
  auto_pages fuel blocks template base pnum = Ok pages ->
  Forall (fun page => Forall (fun c : @colfill (Float64 pow) => Forall (fun s => Forall (fun l =>
    exact_line pow (prune_last (tl_words l)) <= real (c_width (cf_box c)) + INR (pieces pow (tl_words l)) / 100000
    \/ one_fragment (tl_words l)) (shape_lines s)) (col_shapes c)) (snd page)) pages.
Proof.
  intros pow ENV fuel blocks template base pnum h pages HY MW HA Fh H0 T B NJ E.
  destruct (nZ64 pow 10000 ltac:(lia)) as (FH & VH).
  assert (L := lines_modest pow h (@nZ (Float64 pow) 10000) HY MW HA Fh FH H0 VH
    (fun W l => exact_line pow (prune_last (tl_words l)) <= real W + INR (pieces pow (tl_words l)) / 100000 \/ one_fragment (tl_words l))
    fuel base blocks template pnum pages T B).
  destruct numbers as (PE & (N1 & N2 & N3 & N4 & N5 & N6 & N7) & NC & NH). destruct MW as (MW1 & MW2).
  apply L; [|exact E]. clear L E. intros p I lead. rewrite Forall_forall in B. specialize (B _ I). cbn [modest_block] in B.
  destruct B as (FF & FX & HX & _).
  assert (LY := modest_lays pow 8000 6 24 20 27 32 (Z.to_nat 202) (Z.to_nat 10000) N1 N2 MW1 MW2 N4 N3 N5 N6 N7 ltac:(lra) p FF FX ltac:(unfold val; lra) lead (NJ p I)).
  red. intros g st cmd ws ex ws' cs ae fu chunks X1 X2 X3 X4 X5 X6 X7 i ls X8.
  eapply Forall_impl; [|exact (LY g st cmd ws ex ws' cs ae fu chunks X1 X2 X3 X4 X5 X6 X7 i ls X8)].
  cbn beta. intros l [Y|Y]; [left|right; exact Y]. rewrite exact_line_true. eapply Rle_trans; [exact Y|]. apply Rplus_le_compat_l.
  unfold Rdiv. apply Rmult_le_compat_l; [apply pos_INR|]. apply PE.
Qed.
Print Assumptions C90_pages_fit.
(** ** Paragraphs made of one string: words (runs of word characters) of at most 32
    characters and at most 3333 characters in all are enough. *)
Definition string_para {NUM : Num} (t : str) (a : align) (indent : num) (orphans : bool) : para :=
  mkPara [IStr t] style_empty a indent orphans None.
Lemma length_part (t a l b : str) : t = (a ++ l ++ b)%list -> (List.length l <= List.length t)%nat.
Proof. intros ->. rewrite !app_length. lia. Qed.
Lemma modest_string (pow : b64 -> nat -> b64) (ENV : Env (Float64 pow)) (t : str) fuel cont :
  @all_split (Float64 pow) ENV -> short_words 32 t -> (Z.of_nat (List.length t) <= 3333)%Z ->
  Forall (modest_text pow ENV) (@groups (Float64 pow) fuel NoOp t cont []).
Proof.
  intros HY SW LT. eapply Forall_impl; [|apply (@groups_plain (Float64 pow)); destruct cont; auto].
  intros g (l & -> & NL & a & b & E). assert (LL := length_part t a l b E).
  assert (SL : short_words 32 l) by (subst t; eapply short_part; exact SW).
  intros st cmd ws ex W. destruct (@words_count (Float64 pow) ENV 32 NoOp l st cmd ws ex HY SL NL W) as (C1 & C2).
  split; [|split].
  - assert (P := @words_short (Float64 pow) ENV 32 NoOp l st cmd ws ex SL NL W). eapply Forall_impl; [|exact P].
    intros w (x & -> & OP). apply (@piece_slugs (Float64 pow) ENV 32 _ _ HY) in OP. cbn [wl_boxes].
    eapply Forall_impl; [|exact OP]. intros y (u & prev & -> & NE & LU). exact LU.
  - eapply Forall_impl; [|exact C1]. cbn beta. intros. lia.
  - unfold pieces. lia.
Qed.
Theorem C91_strings : forall pow (ENV : Env (Float64 pow)) (h : b64) (base : @full (Float64 pow)) (t : str) a (indent : @num (Float64 pow)) orphans,
  @all_split (Float64 pow) ENV -> short_words 32 t -> (Z.of_nat (List.length t) <= 3333)%Z ->
  finite indent -> Rabs (real indent) <= 24 ->
  finite (fs_size base) -> 6 <= real (fs_size base) <= 24 ->
  finite (@nmul (Float64 pow) (fs_size base) (fs_spacing base)) -> 1 <= real (@nmul (Float64 pow) (fs_size base) (fs_spacing base)) <= real h ->
  modest_para pow ENV h base (@string_para (Float64 pow) t a indent orphans).
Proof.
  intros pow ENV h base t a x o HY SW LT FX HX FZ HZ FL HL.
  assert (OE : full_or base (@style_empty (Float64 pow)) = base) by (destruct base; reflexivity).
  assert (FP : flatten base (@style_empty (Float64 pow)) [IStr t] = [(NoOp, t)]) by (destruct base; reflexivity).
  assert (LP : para_lead base (@string_para (Float64 pow) t a x o) = @nmul (Float64 pow) (fs_size base) (fs_spacing base)).
  { unfold para_lead. cbn [p_style p_content string_para]. rewrite OE, FP.
    unfold max_lead. cbn [max_lead_from apply]. set (l := lead (as_state base)).
    assert (E : l = @nmul (Float64 pow) (fs_size base) (fs_spacing base)) by reflexivity.
    destruct t as [|c s]; [exact E|]. unfold nmax.
    destruct (nZ64 pow 0 ltac:(lia)) as (F0 & V0). change (@nZ (Float64 pow) 0) with (@n0 (Float64 pow)) in *.
    assert (X : @nltb (Float64 pow) n0 l = true). { rewrite E. apply (lt64 pow); auto. rewrite V0. unfold val. lra. }
    rewrite X. destruct (ntruthy l); exact E. }
  split; [reflexivity|]. split; [exact FX|]. split; [exact HX|]. split.
  { cbn [p_style p_content string_para]. split; [rewrite OE; split; assumption|cbn; auto]. }
  rewrite LP. split; [exact FL|]. split; [exact HL|]. cbn [p_style p_content string_para]. rewrite OE, FP.
  unfold splitlines. apply modest_string; auto.
Qed.
Print Assumptions C91_strings.
(** The hyphens of the standard fonts advance. *)
Theorem C91_standard_hyphens : forall pow (ENV : Env (Float64 pow)) f, standard_metrics ENV -> is_builtin f = true -> forall a,
  1 <= real (@charwidth (Float64 pow) ENV f 45%N) + real (@charkern (Float64 pow) ENV f a 45%N).
Proof.
  intros pow ENV [[b|] x y] S BI a; [|discriminate]. destruct (S b x y) as (W & K).
  destruct (C68_kerning_keeps_direction b x y a 45%N) as (P & _ & P0). destruct (builtin_bounds b x y a 45%N) as (B1 & B2).
  rewrite W. destruct (nZ64 pow (builtin_width b x y 45%N) ltac:(lia)) as (_ & V1). unfold val in V1. rewrite V1.
  unfold charkern. unfold builtin_kern in P, B2.
  destruct (snd (builtin_metrics b x y)) as [k|], (kerntab _) as [t|]; try contradiction.
  - rewrite K. destruct (nZ64 pow (k a 45%N) ltac:(lia)) as (_ & V2). unfold val in V2. rewrite V2, <- plus_IZR. apply IZR_le. lia.
  - destruct (nZ64 pow 0 ltac:(lia)) as (_ & V2). unfold val in V2. change (@n0 (Float64 pow)) with (@nZ (Float64 pow) 0). rewrite V2, <- plus_IZR. apply IZR_le. lia.
Qed.
Print Assumptions C91_standard_hyphens.

(** ** The hypotheses are met: two paragraphs of a text in Helvetica 12 (line height 15) on
    pages with two columns, one of them 40 points wide, the other 200. *)
Definition ok_text : str := str_of "The widths of the characters in this text are added up in doubles, one after the other.".
Definition ok_base : @full (Float64 ex_pow) :=
  @mkFull (Float64 ex_pow) (TBuiltin Helvetica) (nZ 12) false false (mkRGB n0 n0 n0) (nQ (5 # 4)%Q) 0%N.
Definition ok_page : @page (Float64 ex_pow) (@drawing (Float64 ex_pow)) :=
  @mkPage (Float64 ex_pow) (@drawing (Float64 ex_pow)) [] (mkXY (nZ 300) (nZ 150)) 0%Z
    [@mkColumn (Float64 ex_pow) (mkXY (nZ 10) (nZ 10)) (nZ 40) (nZ 100); @mkColumn (Float64 ex_pow) (mkXY (nZ 60) (nZ 10)) (nZ 200) (nZ 100)].
Lemma split_one : @all_split (Float64 ex_pow) dbl_std.
Proof. intros h w NE. cbn. rewrite app_nil_r. auto. Qed.
Example C91_example :
  @all_split (Float64 ex_pow) dbl_std /\ metrics_within ex_pow (ENV := dbl_std) 8000 /\ hyphens_advance ex_pow dbl_std 1
  /\ modest_columns ex_pow (@nZ (Float64 ex_pow) 100) (fun _ => ok_page)
  /\ Forall (modest_para ex_pow dbl_std (@nZ (Float64 ex_pow) 100) ok_base)
       [@string_para (Float64 ex_pow) ok_text ARight (nZ 20) true; @string_para (Float64 ex_pow) ok_text AJustify n0 false].
Proof.
  split; [exact split_one|]. split; [apply C90_example|].
  assert (Z : forall z, (Z.abs z <= 10000)%Z -> finite (@nZ (Float64 ex_pow) z) /\ real (@nZ (Float64 ex_pow) z) = IZR z).
  { intros z H. apply (nZ64 ex_pow z). lia. }
  assert (ZV : forall z, (Z.abs z <= 10000)%Z -> real (@nZ (Float64 ex_pow) z) = IZR z) by (intros; apply Z; assumption).
  split.
  { intros [[b|kk] x y] a.
    - apply C91_standard_hyphens; [|reflexivity]. intros b' x' y'. cbn [charwidth kerntab dbl_std f_face f_bold f_italic]. cbv zeta. split; [reflexivity|].
      destruct (snd (builtin_metrics b' x' y')); [reflexivity|exact Logic.I].
    - change (1 <= real (@nZ (Float64 ex_pow) 500) + real (@nZ (Float64 ex_pow) 0)). rewrite !ZV by lia. lra. }
  split.
  { intros n. split; [discriminate|]. cbn [pg_columns ok_page].
    constructor; [|constructor; [|constructor]]; cbn [c_height c_width]; repeat (apply conj); try (apply Z; lia); try (rewrite !ZV by lia; lra). }
  assert (SW : short_words 32 ok_text) by (apply Properties_Plain.short_checked; vm_compute; reflexivity).
  assert (ZS : finite (fs_size ok_base) /\ 6 <= real (fs_size ok_base) <= 24).
  { split; [apply (Z 12%Z ltac:(lia))|]. cbn [fs_size ok_base]. rewrite ZV by lia. lra. }
  assert (LS : finite (@nmul (Float64 ex_pow) (fs_size ok_base) (fs_spacing ok_base))
     /\ 1 <= real (@nmul (Float64 ex_pow) (fs_size ok_base) (fs_spacing ok_base)) <= real (@nZ (Float64 ex_pow) 100)).
  { rewrite (proj2 (Z 100%Z ltac:(lia))), frac_real. split; [vm_compute; reflexivity|].
    replace 1 with (Q2R 1) by (unfold Q2R; cbn; lra). replace 100 with (Q2R 100) by (unfold Q2R; cbn; lra).
    split; apply Qreals.Qle_Rle; vm_compute; discriminate. }
  constructor; [|constructor; [|constructor]]; apply C91_strings; auto; try apply ZS; try apply LS; try exact split_one; try (apply Z; lia); try (vm_compute; discriminate).
  - rewrite ZV by lia; rewrite Rabs_right; lra.
  - change (@n0 (Float64 ex_pow)) with (@nZ (Float64 ex_pow) 0). rewrite ZV by lia; rewrite Rabs_right; lra.
Qed.
