(** * C90: lines measured in doubles.  pdfje measures text with Python floats.  A first-fit
    line it puts in a column is, by its exact width (real arithmetic on the widths and the
    kerning written to the file), at most a tiny rounding error wider than the column. *)
From Coq Require Import ZArith QArith Bool Reals Qreals String.
From Flocq Require Import Core IEEE754.BinarySingleNaN.
From Verif Require Import Base Num Float64 FloatProofs NumInstances RoundErr Fonts State TextSpec StateProofs
  Words WordsSpec WordProofs WordOps Parse Firstfit FirstfitProofs LineSpec Common FontsUsed Layout LayoutTotal Builtins BuiltinTables Properties_Words
  Properties_Builtins Properties_Firstfit FloatLines FloatWidths FloatText FloatPara Properties_Float.
From Coq Require Import Lra Lia.
Local Open Scope string_scope. Local Open Scope list_scope.
Open Scope R_scope.

(** ** The specification: widths in real arithmetic.  [real x] is the number a double denotes. *)
Local Notation real x := (@B2R 53 1024 x).
Local Notation finite x := (@is_finite 53 1024 x = true).
Section Spec.
Context (pow : b64 -> nat -> b64) {ENV : Env (Float64 pow)}.
#[local] Hint Extern 0 Num => exact (Float64 pow) : typeclass_instances.
Definition total (l : list R) : R := fold_right Rplus 0 l.
(** text of one style: characters and kerning, in thousandths of the size *)
Definition exact_text (s : slug) : R :=
  (total (map (fun c => real (charwidth (st_font (sl_state s)) c)) (sl_txt s))
   + total (map (fun p : nat * @num (Float64 pow) => real (snd p)) (sl_kern s))) / 1000 * real (st_size (sl_state s)).
Definition exact_fragment (b : box) : R :=
  match b with BSlug s => exact_text s | BMixed segs _ => total (map (fun p => exact_text (fst p)) segs) end.
Fixpoint exact_space (w : wordlike) : R :=
  match w with
  | WBox _ => 0
  | WWord w => match w_tail w with
               | Some t => (real (charwidth (st_font (w_state w)) 32%N) + real (ts_kern t)) / 1000 * real (st_size (w_state w))
               | None => 0
               end
  | WCmd w _ => exact_space w
  end.
Definition exact_word (w : wordlike) : R := total (map exact_fragment (wl_boxes w)) + exact_space w.
Definition exact_line (l : list wordlike) : R := total (map exact_word l).
(** the characters of a fragment, each change of style counted as one more *)
Definition fragment_length (b : box) : nat :=
  match b with
  | BSlug s => List.length (sl_txt s)
  | BMixed segs _ => list_sum (map (fun p => List.length (sl_txt (fst p)) + 1)%nat segs)
  end.
(** the fragments of the words, and two more for every word *)
Definition pieces (ws : list wordlike) : nat := list_sum (map (fun w => List.length (wl_boxes w) + 2)%nat ws).
(** metrics and sizes in some range *)
Definition metrics_within (m : R) : Prop :=
  (forall f c, finite (charwidth f c) /\ Rabs (real (charwidth f c)) <= m)
  /\ (forall f a b, finite (charkern f a b) /\ Rabs (real (charkern f a b)) <= m).
Definition size_within (lo hi : R) (f : font) (z : @num (Float64 pow)) : Prop := finite z /\ lo <= real z <= hi.
End Spec.
Lemma total_Rsum l : total l = Rsum l.
Proof. reflexivity. Qed.
Lemma exact_line_true pow ENV l : @exact_line pow ENV l = line_adv pow (box_true pow) (space_true pow) l.
Proof.
  unfold exact_line, line_adv, total. rewrite (map_ext (@exact_word pow ENV) (wl_adv pow (box_true pow) (space_true pow))); [reflexivity|].
  intros w. unfold exact_word, wl_adv. f_equal. induction w as [b|w|w IH c]; cbn [exact_space wl_end]; [reflexivity| |exact IH].
  destruct (w_tail w); reflexivity.
Qed.
(** ** The general statement.  [2^g] bounds sums of glyph units, [2^k] bounds sums of points. *)
Definition point_error (Smax : R) (g k : Z) (n : nat) : R :=
  INR (11 * n + 30) * (bpow radix2 (g - 53) * Smax + bpow radix2 (k - 53)) + bpow radix2 (k - 53).
Definition fragment_most (M Smax : R) (n : nat) : R := INR (2 * n + 4) * (M * Smax / 1000).
Definition ample (M Smax : R) (g k : Z) (n : nat) : Prop :=
  (-1000 <= g <= 1000)%Z /\ (-1000 <= k <= 1000)%Z /\ (1 <= n)%nat
  /\ 2004 * bpow radix2 (g - 53) <= M
  /\ INR (2 * n + 8) * (M + bpow radix2 (g - 53)) <= bpow radix2 g
  /\ 4 * (M * Smax) <= bpow radix2 k
  /\ INR (12 * n + 60) * (M * Smax / 1000 + (bpow radix2 (g - 53) * Smax + bpow radix2 (k - 53))) <= bpow radix2 k.

Theorem C90_first_fit_rounding : forall pow (ENV : Env (Float64 pow)) (M Smin Smax : R) (g k : Z) (n : nat)
    fuel ps st cmd ws ex (indent : @num (Float64 pow)) ws' (cols : nat -> @num (Float64 pow) * @num (Float64 pow)) ae lead av cs,
  ample M Smax g k n -> 0 < Smin ->
  metrics_within pow M -> psg_in (size_within pow Smin Smax) ps -> st_in (size_within pow Smin Smax) st ->
  finite indent -> 2000 * Rabs (real indent) <= M * Smin ->
  into_words ps st = Ok (cmd, ws, ex) -> ws <> [] -> indent_first ws indent = Ok ws' ->
  Forall (fun w => Forall (fun b => (fragment_length pow b <= n)%nat) (wl_boxes w)) ws ->
  (forall i, finite (fst (cols i))
     /\ Rabs (real (fst (cols i))) + INR (pieces pow ws) * (fragment_most M Smax n + point_error Smax g k n) <= bpow radix2 k) ->
  ff_shape fuel ws' cols ae lead av false = Ok cs ->
  Forall (fun p : @num (Float64 pow) * line =>
    exact_line pow (prune_last (l_words (snd p))) <= real (fst p) + INR (pieces pow (l_words (snd p))) * point_error Smax g k n
    \/ one_fragment (l_words (snd p))) (placed cols cs).
Proof.
  intros pow ENV M Smin Smax g k n fuel ps st cmd ws ex x ws' cols ae lead av cs (A1 & A2 & A3 & A4 & A5 & A6 & A7) SM (W & K) P S FX HX E NE I L C SH.
  assert (R := para_lines pow M Smin Smax g k n A1 A2 W K A4 A3 A5 A6 A7 SM x FX HX fuel ps st cmd ws ex ws' cols ae lead av cs P S E I L NE C SH).
  eapply Forall_impl; [|exact R]. intros p H. rewrite exact_line_true. exact H.
Qed.
Print Assumptions C90_first_fit_rounding.
(** ** With numbers: text of 6 to 24 points, glyphs of at most 8 em, fragments of at most 32
    characters, paragraphs of at most 10000 pieces in columns of at most 10000 points: the
    error is less than 1/100000 of a point for every piece on the line. *)
Lemma pow2 (z : Z) : (0 <= z)%Z -> bpow radix2 z = IZR (2 ^ z).
Proof. intros H. symmetry. apply (IZR_Zpower radix2). exact H. Qed.
Lemma pow2n (z : Z) : (0 <= z)%Z -> bpow radix2 (- z) = / IZR (2 ^ z).
Proof. intros H. rewrite bpow_opp, pow2; auto. Qed.
Theorem C90_first_fit_fits : forall pow (ENV : Env (Float64 pow))
    fuel ps st cmd ws ex (indent : @num (Float64 pow)) ws' (cols : nat -> @num (Float64 pow) * @num (Float64 pow)) ae lead av cs,
  metrics_within pow 8000 -> psg_in (size_within pow 6 24) ps -> st_in (size_within pow 6 24) st ->
  finite indent -> Rabs (real indent) <= 24 ->
  into_words ps st = Ok (cmd, ws, ex) -> ws <> [] -> indent_first ws indent = Ok ws' ->
  Forall (fun w => Forall (fun b => (fragment_length pow b <= 32)%nat) (wl_boxes w)) ws ->
  (Z.of_nat (pieces pow ws) <= 10000)%Z -> (forall i, finite (fst (cols i)) /\ Rabs (real (fst (cols i))) <= 10000) ->
  ff_shape fuel ws' cols ae lead av false = Ok cs ->
  Forall (fun p : @num (Float64 pow) * line =>
    exact_line pow (prune_last (l_words (snd p))) <= real (fst p) + INR (pieces pow (l_words (snd p))) / 100000
    \/ one_fragment (l_words (snd p))) (placed cols cs).
Proof.
  intros pow ENV fuel ps st cmd ws ex x ws' cols ae lead av cs MW P S FX HX E NE I L N C SH.
  assert (PE : 0 <= point_error 24 20 27 32 <= / 100000).
  { unfold point_error. change (20 - 53)%Z with (- (33))%Z. change (27 - 53)%Z with (- (26))%Z. rewrite !pow2n by lia.
    replace (INR (11 * 32 + 30)) with 382 by (rewrite INR_IZR_INZ; reflexivity). cbn [Z.pow Z.pow_pos Pos.iter]. cbn -[IZR Rplus Rmult Rinv Rle]. split; lra. }
  assert (R := C90_first_fit_rounding pow ENV 8000 6 24 20 27 32 fuel ps st cmd ws ex x ws' cols ae lead av cs).
  assert (NR : INR (pieces pow ws) <= 10000) by (rewrite INR_IZR_INZ; apply IZR_le, N).
  eapply Forall_impl; [|apply R]; auto; try lra.
  - cbn beta. intros p [H|H]; [left|right; exact H]. eapply Rle_trans; [exact H|]. apply Rplus_le_compat_l. unfold Rdiv. apply Rmult_le_compat_l; [apply pos_INR|apply PE].
  - unfold ample. change (20 - 53)%Z with (- (33))%Z. change (27 - 53)%Z with (- (26))%Z. rewrite !pow2n, !pow2 by lia.
    replace (INR (2 * 32 + 8)) with 72 by (rewrite INR_IZR_INZ; reflexivity). replace (INR (12 * 32 + 60)) with 444 by (rewrite INR_IZR_INZ; reflexivity).
    cbn -[IZR Rplus Rmult Rinv Rle Z.le]. repeat split; try lia; lra.
  - intros i. destruct (C i) as (C1 & C2). split; [exact C1|].
    assert (X : INR (pieces pow ws) * (fragment_most 8000 24 32 + point_error 24 20 27 32) <= 10000 * (13056 + 1)).
    { assert (Y : 0 <= fragment_most 8000 24 32 + point_error 24 20 27 32 <= 13056 + 1).
      { unfold fragment_most. replace (INR (2 * 32 + 4)) with 68 by (rewrite INR_IZR_INZ; reflexivity). split; lra. }
      apply Rmult_le_compat; [apply pos_INR|apply Y|exact NR|apply Y]. }
    rewrite pow2 by lia. change (2 ^ 27)%Z with 134217728%Z. lra.
Qed.
Print Assumptions C90_first_fit_fits.
(** The standard fonts are far inside these bounds. *)
Definition small_table (m : list (N * Z) * Z * list (N * list (N * Z))) : bool :=
  let '(w, d, k) := m in
  forallb (fun p => (Z.abs (snd p) <=? 2000)%Z) w && (Z.abs d <=? 2000)%Z && forallb (fun q => forallb (fun p => (Z.abs (snd p) <=? 2000)%Z) (snd q)) k.
Theorem C90_standard_fonts : forall pow (ENV : Env (Float64 pow)) f, standard_metrics ENV -> is_builtin f = true ->
  (forall c, finite (@charwidth (Float64 pow) ENV f c) /\ Rabs (real (@charwidth (Float64 pow) ENV f c)) <= 2000)
  /\ (forall a b, finite (@charkern (Float64 pow) ENV f a b) /\ Rabs (real (@charkern (Float64 pow) ENV f a b)) <= 2000).
Proof.
  assert (T : forallb small_table [metrics_Helvetica; metrics_Helvetica_Bold; metrics_Helvetica_Oblique; metrics_Helvetica_BoldOblique;
    metrics_Times_Roman; metrics_Times_Bold; metrics_Times_Italic; metrics_Times_BoldItalic] = true) by (vm_compute; reflexivity).
  rewrite forallb_forall in T.
  assert (SP : forall m, small_table m = true -> (forall c, Z.abs (fst (of_table m) c) <= 2000)%Z /\ match snd (of_table m) with Some k => forall a c, (Z.abs (k a c) <= 2000)%Z | None => True end).
  { intros [[w d] k] H. unfold small_table in H. apply andb_true_iff in H as (H & HK). apply andb_true_iff in H as (HW & HD). apply Z.leb_le in HD.
    rewrite forallb_forall in HW, HK. cbn [of_table fst snd]. split.
    - intros c. destruct (dictget_cases w d c) as [->|J]; [exact HD|]. apply HW in J. cbn [snd] in J. apply Z.leb_le in J. exact J.
    - intros a c. unfold kernget. destruct (dictget_cases k [] a) as [->|J]; [cbn; lia|]. apply HK in J. cbn [snd] in J. rewrite forallb_forall in J.
      destruct (dictget_cases (dictget k [] a) 0%Z c) as [->|J2]; [cbn; lia|]. apply J in J2. cbn [snd] in J2. apply Z.leb_le in J2. exact J2. }
  assert (B : forall b x y, (forall c, Z.abs (builtin_width b x y c) <= 2000)%Z /\ forall a c, (Z.abs (builtin_kern b x y a c) <= 2000)%Z).
  { intros b x y. unfold builtin_width, builtin_kern. destruct b; try (split; intros; cbn; lia); destruct x, y; cbn [builtin_metrics pick4];
      match goal with |- context[of_table ?m] =>
        assert (X := SP m (T m ltac:(cbn [In]; tauto))); destruct (of_table m) as [w [kk|]]; cbn [fst snd] in *; (split; [apply X|intros; try apply X; try lia]) end. }
  intros pow ENV [[b|] x y] S BI; [|discriminate]. destruct (S b x y) as (W & K). destruct (B b x y) as (B1 & B2).
  assert (Z2 : forall z, (Z.abs z <= 2000)%Z -> finite (@nZ (Float64 pow) z) /\ Rabs (real (@nZ (Float64 pow) z)) <= 2000).
  { intros z H. destruct (nZ64 pow z ltac:(lia)) as (F & V). split; [exact F|]. unfold val in V. rewrite V, <- abs_IZR. apply IZR_le. exact H. }
  split; [intros c; rewrite W; apply Z2, B1|]. intros a c. specialize (B2 a c). unfold builtin_kern in B2. unfold charkern.
  destruct (snd (builtin_metrics b x y)) as [kk|], (kerntab _) as [kt|]; try contradiction; [rewrite K; apply Z2, B2|apply (Z2 0%Z); lia].
Qed.
Print Assumptions C90_standard_fonts.

(** ** The hypotheses are met.  "i is" in Helvetica 12 is 14.664 points wide; the double
    14.664 is a little less, and the column still takes the line: without an allowance for
    rounding the statement would be false. *)
#[local] Existing Instance ex_num.
#[local] Instance dbl_std : Env ex_num := {|
  charwidth := fun f c => match f_face f with TBuiltin b => nZ (builtin_width b (f_bold f) (f_italic f) c) | _ => nZ 500 end;
  kerntab := fun f => match f_face f with
                      | TBuiltin b => match snd (builtin_metrics b (f_bold f) (f_italic f)) with Some k => Some (fun x y => nZ (k x y)) | None => None end
                      | _ => None end;
  hyphenator := fun _ w => [w];
  is_wordchar := fun c => negb (c =? 32)%N |}.
Definition dbl_state : @state ex_num := @mkState ex_num (mkFont (TBuiltin Helvetica) false false) (nZ 12) (mkRGB n0 n0 n0) (nZ 1) 0%N.
Definition dbl_ws : list wordlike := match into_words [(NoOp, str_of "i is")] dbl_state with Ok (_, ws, _) => ws | Err _ => [] end.
Definition dbl_W : @num ex_num := nQ (14664 # 1000)%Q.
Definition dbl_cs : res (list (list line)) := ff_shape 10 dbl_ws (fun _ => (dbl_W, nZ 100)) false (nZ 15) false false.
Definition dbl_line : @line ex_num := match dbl_cs with Ok [[l]] => l | _ => @mkLine ex_num [] n0 n0 end.
(** exact widths, computed with fractions *)
Definition frac (x : b64) : Q :=
  match x with
  | B754_finite s m e _ => match e with
                           | Zneg p => (cond_Zopp s (Zpos m) # (Z.to_pos (2 ^ Zpos p)))%Q
                           | _ => inject_Z (cond_Zopp s (Zpos m) * 2 ^ e)
                           end
  | _ => 0%Q
  end.
Lemma frac_real (x : b64) : real x = Q2R (frac x).
Proof.
  destruct x as [s|s| |s m e K]; cbn [B2R frac]; try (unfold Q2R; cbn; lra). unfold F2R. cbn [Fnum Fexp].
  destruct e as [|p|p].
  - rewrite Z.mul_1_r. unfold Q2R. cbn [Qnum Qden inject_Z bpow]. field.
  - change (bpow radix2 (Z.pos p)) with (IZR (Z.pow_pos 2 p)). unfold Q2R. cbn [Qnum Qden inject_Z Z.pow]. rewrite mult_IZR, Rinv_1, Rmult_1_r. reflexivity.
  - change (bpow radix2 (Z.neg p)) with (/ IZR (Z.pow_pos 2 p)). unfold Q2R. cbn [Qnum Qden].
    assert (X : (0 < 2 ^ Z.pos p)%Z) by (apply Z.pow_pos_nonneg; lia). rewrite Z2Pos.id by exact X. reflexivity.
Qed.
Definition qsum (l : list Q) : Q := fold_right Qplus 0%Q l.
Lemma total_Q {A} (f : A -> R) (h : A -> Q) l : (forall x, f x = Q2R (h x)) -> total (map f l) = Q2R (qsum (map h l)).
Proof. intros E. induction l as [|x l IH]; cbn; [unfold Q2R; cbn; lra|]. rewrite Q2R_plus, E. unfold total in IH. rewrite IH. reflexivity. Qed.
Definition q_text (s : slug) : Q :=
  ((qsum (map (fun c => frac (charwidth (st_font (sl_state s)) c)) (sl_txt s)) + qsum (map (fun p : nat * @num ex_num => frac (snd p)) (sl_kern s))) * (1 # 1000) * frac (st_size (sl_state s)))%Q.
Definition q_fragment (b : box) : Q := match b with BSlug s => q_text s | BMixed segs _ => qsum (map (fun p => q_text (fst p)) segs) end.
Fixpoint q_space (w : wordlike) : Q :=
  match w with
  | WBox _ => 0%Q
  | WWord w => match w_tail w with
               | Some t => ((frac (charwidth (st_font (w_state w)) 32%N) + frac (ts_kern t)) * (1 # 1000) * frac (st_size (w_state w)))%Q
               | None => 0%Q
               end
  | WCmd w _ => q_space w
  end.
Definition q_line (l : list wordlike) : Q := qsum (map (fun w => (qsum (map q_fragment (wl_boxes w)) + q_space w)%Q) l).
Lemma q_text_ok s : exact_text ex_pow s = Q2R (q_text s).
Proof.
  unfold exact_text, q_text. rewrite !Q2R_mult, Q2R_plus, <- !frac_real. unfold Rdiv.
  apply (f_equal2 Rmult); [|reflexivity]. apply (f_equal2 Rmult); [|unfold Q2R; cbn; lra].
  apply (f_equal2 Rplus); apply total_Q; intros; apply frac_real.
Qed.
Lemma q_line_ok l : exact_line ex_pow l = Q2R (q_line l).
Proof.
  apply total_Q. intros w. unfold exact_word. rewrite Q2R_plus. f_equal.
  - apply total_Q. intros [s|l0 st]; cbn [exact_fragment q_fragment]; [apply q_text_ok|]. apply total_Q. intros p. apply q_text_ok.
  - induction w as [b|w|w IH c]; cbn [exact_space q_space]; [unfold Q2R; cbn; lra| |exact IH]. destruct w as [bb [t|] st]; cbn [w_tail w_state]; [|unfold Q2R; cbn; lra].
    rewrite !Q2R_mult, Q2R_plus, <- !frac_real. unfold Rdiv. f_equal. f_equal. unfold Q2R. cbn. lra.
Qed.
Lemma one_line (r : res (list (list (@line ex_num)))) d : match r with Ok [[_]] => true | _ => false end = true -> r = Ok [[match r with Ok [[l]] => l | _ => d end]].
Proof. destruct r as [[|[|l [|]] [|]]|]; try discriminate. reflexivity. Qed.
Example C90_example :
  metrics_within (ENV := dbl_std) ex_pow 8000 /\ st_in (size_within ex_pow 6 24) dbl_state /\ pieces ex_pow dbl_ws = 6%nat
  /\ dbl_cs = Ok [[dbl_line]] /\ placed (fun _ => (dbl_W, nZ 100)) [[dbl_line]] = [(dbl_W, dbl_line)] /\ rmap (map (map (fun l => map fst (measured_all (l_words l))))) dbl_cs = Ok [[str_of "i is"]]
  /\ Forall (fun w => Forall (fun b => (fragment_length ex_pow b <= 32)%nat) (wl_boxes w)) dbl_ws
  /\ real dbl_W < exact_line ex_pow (prune_last (l_words dbl_line)) <= real dbl_W + / 1000000000000000.
Proof.
  split.
  { assert (SM : standard_metrics dbl_std).
    { intros b x y. cbn [charwidth kerntab dbl_std f_face f_bold f_italic]. cbv zeta. split; [reflexivity|].
      destruct (snd (builtin_metrics b x y)); [reflexivity|exact Logic.I]. }
    split.
    - intros [[b|kk] x y] c; [destruct (C90_standard_fonts ex_pow dbl_std (mkFont (TBuiltin b) x y) SM eq_refl) as (A & _); destruct (A c); split; [assumption|lra]|].
      destruct (nZ64 ex_pow 500 ltac:(lia)) as (F & V). split; [exact F|]. change (Rabs (val (@nZ (Float64 ex_pow) 500)) <= 8000). rewrite V. rewrite Rabs_right; lra.
    - intros [[b|kk] x y] a c; [destruct (C90_standard_fonts ex_pow dbl_std (mkFont (TBuiltin b) x y) SM eq_refl) as (_ & A); destruct (A a c); split; [assumption|lra]|].
      destruct (nZ64 ex_pow 0 ltac:(lia)) as (F & V). split; [exact F|]. change (Rabs (val (@nZ (Float64 ex_pow) 0)) <= 8000). rewrite V. rewrite Rabs_right; lra. }
  split.
  { destruct (nZ64 ex_pow 12 ltac:(lia)) as (F & V). split; [exact F|]. change (6 <= val (@nZ (Float64 ex_pow) 12) <= 24). rewrite V. lra. }
  split; [vm_compute; reflexivity|]. split; [apply one_line; vm_compute; reflexivity|]. split; [reflexivity|]. split; [vm_compute; reflexivity|].
  split.
  { apply Forall_forall. intros w I. apply Forall_forall. intros b J. apply Nat.leb_le.
    assert (X : forallb (fun w => forallb (fun b => (fragment_length ex_pow b <=? 32)%nat) (wl_boxes w)) dbl_ws = true) by (vm_compute; reflexivity).
    rewrite forallb_forall in X. specialize (X w I). rewrite forallb_forall in X. apply X, J. }
  rewrite q_line_ok, frac_real. split.
  - apply Qreals.Qlt_Rlt. vm_compute. reflexivity.
  - replace (/ 1000000000000000) with (Q2R (1 # 1000000000000000)) by (unfold Q2R; cbn; lra). rewrite <- Q2R_plus. apply Qreals.Qle_Rle. vm_compute. discriminate.
Qed.
