(** * FloatWidths: the widths of words as measured in doubles, compared with the exact ones. *)
From Coq Require Import ZArith Bool Reals.
From Flocq Require Import Core IEEE754.BinarySingleNaN.
From Verif Require Import Base Num Float64 FloatProofs NumInstances RoundErr Fonts State TextSpec StateProofs
  Words WordsSpec WordProofs WordOps FloatLines.
From Coq Require Import Lra Lia.
Open Scope R_scope.

(** sums with an error for every term *)
Lemma sum_each k pow (l : list b64) (rs : list (R * R)) : sane k ->
  Forall2 (fun x r => close x (fst r) (snd r)) l rs -> Forall (fun r => 0 <= snd r) rs ->
  forall acc a d, close acc a d -> 0 <= d ->
  Rabs a + d + Rsum (map (fun r => Rabs (fst r)) rs) + Rsum (map snd rs) + INR (List.length l) * ulp2 k <= cap k ->
  close (fold_left (@nadd (Float64 pow)) l acc) (a + Rsum (map fst rs)) (d + Rsum (map snd rs) + INR (List.length l) * ulp2 k).
Proof.
  intros S F. assert (U := ulp2_pos k). induction F as [|x r l rs X F IH]; intros P acc a d A D0 H.
  - cbn in *. replace (a + 0) with a by ring. replace (d + 0 + 0 * ulp2 k) with d by ring. exact A.
  - inversion P as [|? ? P1 P2]; subst. cbn [fold_left map Rsum List.length] in *. rewrite S_INR in *.
    assert (Q : 0 <= INR (List.length l) * ulp2 k) by (apply Rmult_le_pos; [apply pos_INR|lra]).
    assert (Q2 : 0 <= Rsum (map (fun r => Rabs (fst r)) rs)).
    { clear. induction rs as [|y rs IH]; cbn; [lra|]. assert (B := Rabs_pos (fst y)). lra. }
    assert (Q3 : 0 <= Rsum (map snd rs)).
    { clear - P2. induction P2 as [|y rs Y _ IH]; cbn; lra. }
    assert (T := Rabs_triang a (fst r)).
    replace (a + (fst r + Rsum (map fst rs))) with ((a + fst r) + Rsum (map fst rs)) by ring.
    replace (d + (snd r + Rsum (map snd rs)) + (INR (List.length l) + 1) * ulp2 k) with ((d + snd r + ulp2 k) + Rsum (map snd rs) + INR (List.length l) * ulp2 k) by ring.
    apply IH; [exact P2| |lra|lra].
    change (@nadd (Float64 pow) acc x) with (badd acc x). apply close_add; auto. lra.
Qed.
Lemma exact_close x : fin x -> close x (val x) 0.
Proof. intros F. split; [exact F|]. replace (val x - val x) with 0 by ring. rewrite Rabs_R0. lra. Qed.
Lemma Rsum_bound {A} (f : A -> R) l b : Forall (fun x => Rabs (f x) <= b) l -> Rsum (map Rabs (map f l)) <= INR (List.length l) * b.
Proof.
  induction 1 as [|x l H _ IH]; cbn [map Rsum List.length]; [cbn; lra|]. rewrite S_INR. lra.
Qed.
Lemma Rsum_bound1 {A} (f : A -> R) l b : Forall (fun x => Rabs (f x) <= b) l -> Rabs (Rsum (map f l)) <= INR (List.length l) * b.
Proof. intros H. eapply Rle_trans; [apply Rsum_abs|apply Rsum_bound, H]. Qed.

Section Widths.
Context (pow : b64 -> nat -> b64) {ENV : Env (Float64 pow)}.
#[local] Hint Extern 0 Num => exact (Float64 pow) : typeclass_instances.
(** ** The exact widths: characters and kerning, in points *)
Definition slug_true (s : slug) : R :=
  (Rsum (map (fun c => val (charwidth (st_font (sl_state s)) c)) (sl_txt s)) + Rsum (map (fun p : nat * @num (Float64 pow) => val (snd p)) (sl_kern s)))
  / 1000 * val (st_size (sl_state s)).
Definition box_true (b : box) : R :=
  match b with BSlug s => slug_true s | BMixed segs _ => Rsum (map (fun p => slug_true (fst p)) segs) end.
Definition space_true (t : tspace * state) : R :=
  (val (spacewidth (st_font (snd t))) + val (ts_kern (fst t))) / 1000 * val (st_size (snd t)).

Context (M Smax : R) (g k : Z) (n : nat).
Hypothesis SG : sane g.
Hypothesis SK : sane k.
Hypothesis WID : forall f c, fin (charwidth f c) /\ Rabs (val (charwidth f c)) <= M.
Hypothesis KER : forall f a b, fin (charkern f a b) /\ Rabs (val (charkern f a b)) <= M.
Hypothesis M0 : 2004 * ulp2 g <= M.
Hypothesis CG : INR (2 * n + 8) * (M + ulp2 g) <= cap g.
Definition delta : R := ulp2 g * Smax + ulp2 k.
Hypothesis CK1 : 4 * (M * Smax) <= cap k.
Hypothesis CK2 : INR (12 * n + 60) * (M * Smax / 1000 + delta) <= cap k.
Definition okst (st : state) : Prop := fin (st_size st) /\ 0 < val (st_size st) <= Smax.

Local Notation ug := (ulp2 g). Local Notation uk := (ulp2 k).
Lemma n1000_val : fin (@n1000 (Float64 pow)) /\ val (@n1000 (Float64 pow)) = 1000.
Proof. apply (nZ64 pow 1000). lia. Qed.
Lemma M_pos : 0 < M. Proof. assert (U := ulp2_pos g). lra. Qed.

Definition kern_small (p : nat * @num (Float64 pow)) : Prop := fin (snd p) /\ Rabs (val (snd p)) <= M.
Definition near (c : nat) (s : slug) : Prop :=
  close (sl_width s) (slug_true s) (INR c * delta) /\ okst (sl_state s) /\ Forall kern_small (sl_kern s)
  /\ (List.length (sl_kern s) <= List.length (sl_txt s) + 1)%nat /\ Forall (fun p => fst p <> 0%nat) (tl (sl_kern s)).

Lemma okst_delta st : okst st -> 0 < Smax /\ ulp2 g * val (st_size st) <= ulp2 g * Smax /\ 0 < ulp2 g * Smax /\ ulp2 k <= delta /\ 0 < delta
  /\ M * val (st_size st) <= M * Smax /\ 0 < M * Smax.
Proof.
  intros (_ & O1 & O2). assert (U := ulp2_pos g). assert (V := ulp2_pos k). assert (P := M_pos).
  assert (A : ulp2 g * val (st_size st) <= ulp2 g * Smax) by (apply Rmult_le_compat_l; lra).
  assert (B : 0 < ulp2 g * Smax) by (apply Rmult_lt_0_compat; lra).
  assert (A2 : M * val (st_size st) <= M * Smax) by (apply Rmult_le_compat_l; lra).
  assert (B2 : 0 < M * Smax) by (apply Rmult_lt_0_compat; lra).
  unfold delta. repeat split; lra.
Qed.
(** a sum of glyph units, in points *)
Lemma in_points (m : nat) x st : okst st -> Rabs x <= INR m * M -> Rabs (x / 1000 * val (st_size st)) <= INR m * (M * Smax / 1000).
Proof.
  intros O H. destruct (okst_delta st O) as (S0 & _ & _ & _ & _ & A & B). destruct O as (_ & O1 & O2).
  rewrite Rabs_mult. rewrite (Rabs_right (val (st_size st))) by lra. unfold Rdiv. rewrite Rabs_mult. rewrite (Rabs_right (/ 1000)) by lra.
  replace (Rabs x * / 1000 * val (st_size st)) with (Rabs x * val (st_size st) * / 1000) by ring.
  replace (INR m * (M * Smax * / 1000)) with (INR m * (M * Smax) * / 1000) by ring.
  apply Rmult_le_compat_r; [lra|]. eapply Rle_trans.
  - apply Rmult_le_compat_r; [lra|exact H].
  - rewrite Rmult_assoc. apply Rmult_le_compat_l; [apply pos_INR|exact A].
Qed.
Lemma slug_units s : Forall kern_small (sl_kern s) ->
  Rabs (Rsum (map (fun c => val (charwidth (st_font (sl_state s)) c)) (sl_txt s)) + Rsum (map (fun p : nat * @num (Float64 pow) => val (snd p)) (sl_kern s)))
  <= INR (List.length (sl_txt s) + List.length (sl_kern s)) * M.
Proof.
  intros K. eapply Rle_trans; [apply Rabs_triang|]. rewrite plus_INR, Rmult_plus_distr_r. apply Rplus_le_compat.
  - apply Rsum_bound1. apply Forall_forall. intros c _. apply WID.
  - apply Rsum_bound1. eapply Forall_impl; [|exact K]. intros p (_ & P). exact P.
Qed.
Lemma slug_true_small s : okst (sl_state s) -> Forall kern_small (sl_kern s) ->
  Rabs (slug_true s) <= INR (List.length (sl_txt s) + List.length (sl_kern s)) * (M * Smax / 1000).
Proof. intros O K. apply in_points; [exact O|apply slug_units, K]. Qed.
Lemma cap_n (a b : nat) : 0 < Smax -> (a <= 12 * n + 60)%nat -> (b <= 12 * n + 60)%nat -> INR a * (M * Smax / 1000) + INR b * delta <= cap k.
Proof.
  intros S0 A B. eapply Rle_trans; [|exact CK2]. rewrite Rmult_plus_distr_l.
  assert (P := M_pos). assert (U := ulp2_pos g). assert (V := ulp2_pos k).
  assert (D : 0 < ulp2 g * Smax) by (apply Rmult_lt_0_compat; lra). assert (D2 : 0 < M * Smax) by (apply Rmult_lt_0_compat; lra).
  apply Rplus_le_compat; (apply Rmult_le_compat_r; [unfold delta; lra|apply le_INR; assumption]).
Qed.
(** ** a new slug *)
Lemma kern_from_small f table i pairs : (forall a b, charkern f a b = table a b) -> Forall kern_small (kern_from table i pairs).
Proof.
  intros T. revert i. induction pairs as [|[a b] r IH]; intros i; cbn [kern_from]; [constructor|].
  destruct (ntruthy _); [|apply IH]. constructor; [|apply IH]. unfold kern_small. cbn [snd]. rewrite <- T. apply KER.
Qed.
Lemma kern_from_length (table : char -> char -> num) i pairs : (List.length (kern_from table i pairs) <= List.length pairs)%nat.
Proof.
  revert i. induction pairs as [|[a b] r IH]; intros i; cbn [kern_from List.length]; [lia|].
  destruct (ntruthy _); cbn [List.length]; specialize (IH (S i)); lia.
Qed.
Lemma kern_from_pos (table : char -> char -> num) i pairs : (0 < i)%nat -> Forall (fun p => fst p <> 0%nat) (kern_from table i pairs).
Proof.
  revert i. induction pairs as [|[a b] r IH]; intros i H; cbn [kern_from]; [constructor|].
  destruct (ntruthy _); [constructor; [cbn; lia|]|]; apply IH; lia.
Qed.
Lemma kern_from_tl (table : char -> char -> num) i pairs : Forall (fun p => fst p <> 0%nat) (tl (kern_from table i pairs)).
Proof.
  revert i. induction pairs as [|[a b] r IH]; intros i; cbn [kern_from tl]; [constructor|].
  destruct (ntruthy _); [|apply IH]. cbn [tl]. apply kern_from_pos. lia.
Qed.
Lemma pairwise_length (s : str) : (List.length (pairwise s) <= List.length s - 1)%nat.
Proof. induction s as [|a [|b s] IH]; cbn in *; lia. Qed.
Lemma font_kern_facts f t prev : Forall kern_small (font_kern f t prev)
  /\ (List.length (font_kern f t prev) <= List.length t)%nat /\ Forall (fun p => fst p <> 0%nat) (tl (font_kern f t prev)).
Proof.
  unfold font_kern. assert (C := fun a b => eq_refl (charkern f a b)). unfold charkern in C at 2.
  destruct (kerntab f) as [table|]; [|repeat split; cbn; auto; lia]. unfold kern. destruct prev as [p|].
  - split; [apply (kern_from_small f), C|]. split; [|apply kern_from_tl].
    eapply Nat.le_trans; [apply kern_from_length|]. eapply Nat.le_trans; [apply pairwise_length|]. cbn. lia.
  - split; [apply (kern_from_small f), C|]. split; [|apply kern_from_tl].
    eapply Nat.le_trans; [apply kern_from_length|]. eapply Nat.le_trans; [apply pairwise_length|]. lia.
Qed.
Lemma units_near (l : list b64) m : Forall (fun x => fin x /\ Rabs (val x) <= M) l -> (List.length l <= m)%nat -> (m <= n)%nat ->
  close (ndiv (@nsum (Float64 pow) l) n1000) (Rsum (map val l) / 1000) (INR (m + 1) * ug).
Proof.
  intros F L N. destruct n1000_val as (F1 & V1). assert (U := ulp2_pos g). assert (P := M_pos).
  assert (LN : INR (List.length l) <= INR m) by (apply le_INR, L). assert (MN : INR m <= INR n) by (apply le_INR, N).
  assert (L0 := pos_INR (List.length l)).
  assert (C : INR n * (2 * (M + ug)) + 8 * (M + ug) <= cap g).
  { assert (X := CG). rewrite plus_INR, mult_INR in X. replace (INR 2) with 2 in X by (cbn; lra). replace (INR 8) with 8 in X by (cbn; lra). fold ug in X. nra. }
  assert (B : Rsum (map Rabs (map val l)) <= INR (List.length l) * M) by (apply Rsum_bound; eapply Forall_impl; [|exact F]; intros ? (_ & X); exact X).
  assert (B1 : Rabs (Rsum (map val l)) <= INR (List.length l) * M) by (eapply Rle_trans; [apply Rsum_abs|exact B]).
  fold ug in U. assert (X1 : INR (List.length l) * M <= INR n * M) by (apply Rmult_le_compat_r; lra).
  assert (X2 : INR (List.length l) * ug <= INR m * ug) by (apply Rmult_le_compat_r; lra).
  assert (X3 : INR m * ug <= INR n * ug) by (apply Rmult_le_compat_r; lra).
  assert (X4 : 0 <= INR n * M) by (apply Rmult_le_pos; [apply pos_INR|lra]). assert (X5 : 0 <= INR n * ug) by (apply Rmult_le_pos; [apply pos_INR|lra]).
  assert (N1 : close (@nsum (Float64 pow) l) (Rsum (map val l)) (INR (List.length l) * (0 + ulp2 g))).
  { apply nsum_near; auto; [lra| |].
    - clear -F. induction F as [|x l (X & _) _ IH]; cbn; constructor; auto. apply exact_close, X.
    - fold ug. lra. }
  fold ug in N1. rewrite Rplus_0_l in N1.
  change (ndiv (@nsum (Float64 pow) l) n1000) with (bdiv (@nsum (Float64 pow) l) n1000). rewrite <- V1.
  eapply close_weak; [|apply (close_div g _ _ _ _ SG N1)].
  - fold ug. rewrite plus_INR. change (INR 1) with 1. lra.
  - rewrite V1. rewrite Rabs_right; lra.
  - lra.
Qed.
Lemma new_near t st prev : okst st -> (List.length t <= n)%nat -> near (2 * List.length t + 3) (slug_new t st prev).
Proof.
  intros O L. destruct (okst_delta st O) as (S0 & D1 & D2 & D3 & D4 & D5 & D6). assert (O' := O). destruct O' as (FS & O1 & O2).
  destruct (font_kern_facts (st_font st) t prev) as (K1 & K2 & K3).
  unfold near, slug_new. cbn [sl_state sl_kern sl_txt sl_width]. split; [|repeat split; auto; lia].
  set (kl := font_kern (st_font st) t prev) in *. set (f := st_font st) in *. set (m := List.length t) in *.
  assert (U := ulp2_pos g). fold ug in U. assert (P := M_pos).
  assert (W1 : close (font_width f t) (Rsum (map val (map (charwidth f) t)) / 1000) (INR (m + 1) * ug)).
  { apply units_near; [|rewrite map_length; subst m; lia|exact L]. apply Forall_forall. intros x I. apply in_map_iff in I as (c & <- & _). apply WID. }
  assert (W2 : close (ndiv (@nsum (Float64 pow) (map snd kl)) n1000) (Rsum (map val (map snd kl)) / 1000) (INR (m + 1) * ug)).
  { apply units_near; [|rewrite map_length; exact K2|exact L]. rewrite Forall_map. exact K1. }
  rewrite map_map in W1, W2.
  assert (UN := slug_units (mkSlug t kl n0 st) K1). cbn [sl_txt sl_kern sl_state] in UN. fold f m in UN.
  set (a := Rsum (map (fun x => val (@charwidth (Float64 pow) ENV f x)) t)) in *. set (b := Rsum (map (fun x : nat * @num (Float64 pow) => val (snd x)) kl)) in *.
  assert (UN2 : Rabs (a + b) <= INR (2 * n) * M).
  { eapply Rle_trans; [exact UN|]. apply Rmult_le_compat_r; [lra|]. apply le_INR. lia. }
  assert (MN : INR m <= INR n) by (apply le_INR, L). assert (MP := pos_INR m).
  assert (C : INR n * (2 * (M + ug)) + 8 * (M + ug) <= cap g).
  { assert (X := CG). rewrite plus_INR, mult_INR in X. replace (INR 2) with 2 in X by (cbn; lra). replace (INR 8) with 8 in X by (cbn; lra). fold ug in X. nra. }
  assert (X3 : INR m * ug <= INR n * ug) by (apply Rmult_le_compat_r; lra).
  assert (X4 : 0 <= INR n * M) by (apply Rmult_le_pos; [apply pos_INR|lra]). assert (X5 : 0 <= INR n * ug) by (apply Rmult_le_pos; [apply pos_INR|lra]).
  rewrite mult_INR in UN2. replace (INR 2) with 2 in UN2 by (cbn; lra).
  assert (AB1 : Rabs ((a + b) / 1000) <= Rabs (a + b)).
  { unfold Rdiv. rewrite Rabs_mult, (Rabs_right (/ 1000)) by lra. assert (Z := Rabs_pos (a + b)). lra. }
  assert (W3 : close (nadd (font_width f t) (ndiv (@nsum (Float64 pow) (map snd kl)) n1000)) (a / 1000 + b / 1000) (INR (2 * m + 3) * ug)).
  { change (nadd (font_width f t) (ndiv (@nsum (Float64 pow) (map snd kl)) n1000)) with (badd (font_width f t) (ndiv (@nsum (Float64 pow) (map snd kl)) n1000)).
    eapply close_weak; [|apply (close_add g _ _ _ _ _ _ SG W1 W2)].
    - fold ug. rewrite !plus_INR, mult_INR. replace (INR 2) with 2 by (cbn; lra). replace (INR 3) with 3 by (cbn; lra). change (INR 1) with 1. lra.
    - replace (a / 1000 + b / 1000) with ((a + b) / 1000) by field. rewrite plus_INR. change (INR 1) with 1. lra. }
  replace (a / 1000 + b / 1000) with ((a + b) / 1000) in W3 by field.
  unfold slug_true. cbn [sl_txt sl_kern sl_state]. fold f a b.
  change (nmul (nadd (font_width f t) (ndiv (@nsum (Float64 pow) (map snd kl)) n1000)) (st_size st))
    with (bmul (nadd (font_width f t) (ndiv (@nsum (Float64 pow) (map snd kl)) n1000)) (st_size st)).
  assert (SZ : Rabs (val (st_size st)) = val (st_size st)) by (apply Rabs_right; lra).
  assert (GM : INR (2 * m + 3) * ug * val (st_size st) <= INR (2 * m + 3) * (ug * Smax)).
  { rewrite Rmult_assoc. apply Rmult_le_compat_l; [apply pos_INR|exact D1]. }
  eapply close_weak; [|apply (close_mul k _ _ _ _ SK W3 FS)].
  - rewrite SZ. eapply Rle_trans; [apply Rplus_le_compat_r, GM|]. unfold delta. fold ug uk. rewrite Rmult_plus_distr_l.
    apply Rplus_le_compat_l. rewrite <- (Rmult_1_l uk) at 1. apply Rmult_le_compat_r; [apply Rlt_le, ulp2_pos|]. change 1 with (INR 1). apply le_INR. lia.
  - rewrite <- Rabs_mult, SZ. eapply Rle_trans; [apply Rplus_le_compat; [|exact GM]|].
    + apply (in_points (2 * n)); [exact O|]. rewrite mult_INR. replace (INR 2) with 2 by (cbn; lra). exact UN2.
    + eapply Rle_trans; [|apply (cap_n (2 * n) (2 * m + 3) S0); lia]. apply Rplus_le_compat_l. apply Rmult_le_compat_l; [apply pos_INR|].
      unfold delta. fold ug uk. assert (V := ulp2_pos k). fold uk in V. lra.
Qed.
(** ** kerning removed, a hyphen added, an indent *)
Lemma kern_points (x : @num (Float64 pow)) st b : fin x -> Rabs (val x) <= b -> 0 <= b -> b * Smax + 4 * uk <= cap k -> okst st ->
  close (ndiv (nmul x (st_size st)) (@n1000 (Float64 pow))) (val x / 1000 * val (st_size st)) (2 * uk).
Proof.
  intros F B B0 C (FS & O1 & O2). destruct n1000_val as (F1 & V1). assert (V := ulp2_pos k). fold uk in V.
  assert (SZ : Rabs (val (st_size st)) = val (st_size st)) by (apply Rabs_right; lra).
  assert (X : Rabs (val x) * val (st_size st) <= b * Smax).
  { apply Rmult_le_compat; try lra. apply Rabs_pos. }
  assert (A : close (bmul x (st_size st)) (val x * val (st_size st)) uk).
  { eapply close_weak; [|apply (close_mul k x (st_size st) (val x) 0 SK); auto using exact_close].
    - fold uk. lra.
    - rewrite SZ. lra. }
  change (ndiv (nmul x (st_size st)) n1000) with (bdiv (bmul x (st_size st)) n1000).
  replace (val x / 1000 * val (st_size st)) with (val x * val (st_size st) / val (@n1000 (Float64 pow))) by (rewrite V1; field).
  eapply close_weak; [|apply (close_div k _ _ _ _ SK A)].
  - fold uk. lra.
  - rewrite V1, Rabs_right; lra.
  - rewrite Rabs_mult, SZ. lra.
Qed.
Lemma caps : 0 < Smax -> 2 * (M * Smax) + 4 * uk <= cap k.
Proof.
  intros S0. assert (V := ulp2_pos k). assert (Z := cap_n 0 60 S0 ltac:(lia) ltac:(lia)). replace (INR 60) with 60 in Z by (cbn; lra). cbn [INR] in Z.
  assert (U := ulp2_pos g). assert (D2 : 0 < ulp2 g * Smax) by (apply Rmult_lt_0_compat; lra). unfold delta in Z. fold uk in *. fold ug in *. lra.
Qed.
Lemma INR_delta c c' : (c <= c')%nat -> 0 < delta -> INR c * delta <= INR c' * delta.
Proof. intros H D. apply Rmult_le_compat_r; [lra|apply le_INR, H]. Qed.
Lemma slug_cap s (c : nat) : okst (sl_state s) -> Forall kern_small (sl_kern s) -> (List.length (sl_txt s) + List.length (sl_kern s) <= 2 * n + 6)%nat ->
  (c <= 2 * n + 40)%nat -> Rabs (slug_true s) + INR c * delta <= cap k.
Proof.
  intros O K L C. destruct (okst_delta _ O) as (S0 & _). eapply Rle_trans; [apply Rplus_le_compat_r, slug_true_small; assumption|].
  apply cap_n; [exact S0|lia|lia].
Qed.
Lemma unkern_near c s : near c s -> (List.length (sl_txt s) <= n)%nat -> (c <= 2 * n + 20)%nat ->
  near (if slug_has_init_kern s then c + 3 else c) (slug_without_init_kern s)
  /\ slug_has_init_kern (slug_without_init_kern s) = false /\ sl_txt (slug_without_init_kern s) = sl_txt s.
Proof.
  intros (W & O & K & L & T) LN C. unfold slug_has_init_kern, slug_without_init_kern.
  destruct (sl_kern s) as [|[[|i] x] r] eqn:E.
  - rewrite E. repeat split; auto; rewrite ?E; auto; try apply W; try apply O; try (cbn; lia).
  - cbn [sl_kern sl_txt]. cbn [tl] in T. split; [|split; [|reflexivity]].
    2:{ destruct r as [|[[|i] y] r]; auto. apply Forall_inv in T. exfalso. apply T. reflexivity. }
    inversion K as [|? ? (K1 & K2) K3]; subst. cbn [snd] in *.
    destruct (okst_delta _ O) as (S0 & D1 & D2 & D3 & D4 & D5 & D6). assert (CA := caps S0). assert (V := ulp2_pos k). fold uk in *.
    set (s' := mkSlug (sl_txt s) r (nsub (sl_width s) (ndiv (nmul x (st_size (sl_state s))) n1000)) (sl_state s)).
    assert (TR : slug_true s' = slug_true s - val x / 1000 * val (st_size (sl_state s))).
    { unfold slug_true, s'. cbn [sl_txt sl_kern sl_state]. rewrite E. cbn [map Rsum snd]. field. }
    split; [|repeat split; auto; cbn [sl_kern sl_txt s' List.length] in *; try (apply O); try lia].
    2:{ clear -T. destruct r; cbn in *; [constructor|]. inversion T; auto. }
    cbn [sl_width s']. rewrite TR. change (nsub (sl_width s) (ndiv (nmul x (st_size (sl_state s))) n1000)) with (bsub (sl_width s) (ndiv (nmul x (st_size (sl_state s))) n1000)).
    assert (KP := kern_points x (sl_state s) M K1 K2 ltac:(assert (Q := M_pos); lra) ltac:(lra) O).
    eapply close_weak; [|apply (close_sub k _ _ _ _ _ _ SK W KP)].
    + fold uk. rewrite plus_INR. replace (INR 3) with 3 by (cbn; lra). lra.
    + rewrite <- TR. assert (SC := slug_cap s' (c + 2)). cbn [s' sl_txt sl_kern sl_state] in SC. specialize (SC O K3 ltac:(cbn [List.length] in L; lia) ltac:(lia)).
      rewrite plus_INR in SC. replace (INR 2) with 2 in SC by (cbn; lra). fold uk. lra.
  - rewrite E. repeat split; auto; rewrite ?E; auto; try apply W; try apply O.
Qed.
Lemma hyphen_near c s : near c s -> (List.length (sl_txt s) <= n)%nat -> (c <= 2 * n + 20)%nat ->
  close (sl_width (slug_with_hyphen s)) (slug_true (slug_with_hyphen s)) (INR (c + 5) * delta)
  /\ Rabs (slug_true (slug_with_hyphen s)) <= INR (2 * List.length (sl_txt s) + 3) * (M * Smax / 1000).
Proof.
  intros (W & O & K & L & T) LN C. unfold slug_with_hyphen. set (f := st_font (sl_state s)). set (x := charkern f (slug_last s) hyphen_char).
  destruct (okst_delta _ O) as (S0 & D1 & D2 & D3 & D4 & D5 & D6). assert (CA := caps S0). assert (V := ulp2_pos k). assert (U := ulp2_pos g). fold uk ug in *.
  destruct (WID f hyphen_char) as (H1 & H2). destruct (KER f (slug_last s) hyphen_char) as (X1 & X2). fold x in X1, X2. set (h := charwidth f hyphen_char) in *.
  destruct n1000_val as (F1 & V1). assert (P := M_pos).
  set (kl := if ntruthy x then sl_kern s ++ [(List.length (sl_txt s), x)] else sl_kern s).
  assert (KL : Forall kern_small kl /\ (List.length kl <= List.length (sl_txt s) + 2)%nat).
  { subst kl. destruct (ntruthy x); [|split; [exact K|lia]]. rewrite app_length. cbn [List.length]. split; [|lia]. apply Forall_app. split; [exact K|]. constructor; [exact (conj X1 X2)|constructor]. }
  assert (KS : Rsum (map (fun p : nat * @num (Float64 pow) => val (snd p)) kl) = Rsum (map (fun p : nat * @num (Float64 pow) => val (snd p)) (sl_kern s)) + val x).
  { subst kl. destruct (ntruthy x) eqn:TX; [rewrite map_app, Rsum_app; cbn; lra|].
    destruct (nZ64 pow 0 ltac:(lia)) as (F0 & V0). unfold ntruthy in TX. apply negb_false_iff in TX.
    change (neqb x n0) with (Beqb x (@nZ (Float64 pow) 0)) in TX. apply (eq_val x _ X1 F0) in TX. rewrite TX, V0. ring. }
  set (s' := mkSlug (sl_txt s ++ [hyphen_char]) kl _ (sl_state s)).
  assert (TR : slug_true s' = slug_true s + (val h + val x) / 1000 * val (st_size (sl_state s))).
  { unfold slug_true, s'. cbn [sl_txt sl_kern sl_state]. rewrite KS, map_app, Rsum_app. cbn [map Rsum]. fold f h. field. }
  assert (C' : INR n * (2 * (M + ug)) + 8 * (M + ug) <= cap g).
  { assert (X := CG). rewrite plus_INR, mult_INR in X. replace (INR 2) with 2 in X by (cbn; lra). replace (INR 8) with 8 in X by (cbn; lra). fold ug in X. nra. }
  assert (X4 : 0 <= INR n * (2 * (M + ug))) by (apply Rmult_le_pos; [apply pos_INR|lra]).
  assert (HX : Rabs (val h + val x) <= 2 * M) by (eapply Rle_trans; [apply Rabs_triang|lra]).
  assert (A1 : close (badd h x) (val h + val x) ug).
  { eapply close_weak; [|apply (close_add g h x (val h) (val x) 0 0 SG); auto using exact_close]; fold ug; lra. }
  assert (A2 : close (bdiv (badd h x) n1000) ((val h + val x) / 1000) (2 * ug)).
  { rewrite <- V1. eapply close_weak; [|apply (close_div g _ _ _ _ SG A1)]; fold ug; try lra. rewrite V1, Rabs_right; lra. }
  assert (SZ : Rabs (val (st_size (sl_state s))) = val (st_size (sl_state s))) by (apply Rabs_right; destruct O as (_ & O1 & O2); lra).
  assert (IP := in_points 2 (val h + val x) (sl_state s) O ltac:(cbn; lra)).
  assert (A3 : close (bmul (bdiv (badd h x) n1000) (st_size (sl_state s))) ((val h + val x) / 1000 * val (st_size (sl_state s))) (2 * (ug * Smax) + uk)).
  { eapply close_weak; [|apply (close_mul k _ _ _ _ SK A2 (proj1 O))]; rewrite SZ; [fold uk; lra|].
    rewrite <- SZ at 1. rewrite <- Rabs_mult. assert (Z := cap_n 2 2 S0 ltac:(lia) ltac:(lia)). unfold delta in Z. fold ug uk in Z. cbn [INR] in Z. cbn [INR] in IP. lra. }
  assert (SM : Rabs (slug_true s') <= INR (2 * List.length (sl_txt s) + 3) * (M * Smax / 1000)).
  { eapply Rle_trans; [apply slug_true_small; [exact O|apply KL]|]. apply Rmult_le_compat_r; [lra|]. apply le_INR. cbn [s' sl_txt sl_kern]. rewrite app_length. cbn [List.length]. destruct KL as (_ & KL). lia. }
  split; [|exact SM]. rewrite TR. unfold s'. cbn [sl_width].
  change (nadd (sl_width s) (nmul (ndiv (nadd h x) n1000) (st_size (sl_state s)))) with (badd (sl_width s) (bmul (bdiv (badd h x) n1000) (st_size (sl_state s)))).
  eapply close_weak; [|apply (close_add k _ _ _ _ _ _ SK W A3)].
  - fold uk. unfold delta. fold ug uk. rewrite plus_INR. replace (INR 5) with 5 by (cbn; lra). lra.
  - rewrite <- TR. eapply Rle_trans; [|apply (cap_n (2 * List.length (sl_txt s) + 3) (c + 3) S0); lia]. rewrite (plus_INR c). replace (INR 3) with 3 by (cbn; lra).
    unfold delta in *. fold ug uk in *. lra.
Qed.
Lemma indent_near c s (x : @num (Float64 pow)) s' : near c s -> (List.length (sl_txt s) <= n)%nat -> (c <= 2 * n + 20)%nat ->
  (List.length (sl_kern s) <= List.length (sl_txt s))%nat ->
  fin x -> 2000 * Rabs (val x) <= M * val (st_size (sl_state s)) ->
  slug_indent s x = Ok s' -> near (c + 3) s' /\ (s' = s \/ slug_has_init_kern s' = true) /\ sl_txt s' = sl_txt s.
Proof.
  intros (W & O & K & L & T) LN C LK FX HX. unfold slug_indent.
  destruct (okst_delta _ O) as (S0 & D1 & D2 & D3 & D4 & D5 & D6). assert (V := ulp2_pos k). assert (U := ulp2_pos g). fold uk ug in *. assert (P := M_pos).
  destruct (ntruthy x) eqn:TX.
  2:{ intros E. apply Ok_inj in E. subst s'. split; [|auto]. split; [|auto].
      eapply close_weak; [|exact W]. apply INR_delta; [lia|exact D4]. }
  destruct (slug_has_init_kern s) eqn:HI; [discriminate|]. intros E. apply bind_ok in E as (q & Q & E). apply Ok_inj in E. subst s'.
  set (sz := st_size (sl_state s)) in *. destruct O as (FS & O1 & O2). fold sz in FS, O1, O2.
  unfold pdiv in Q. destruct (neqb sz n0); [discriminate|]. apply Ok_inj in Q. subst q. destruct n1000_val as (F1 & V1).
  assert (C' : INR n * (2 * (M + ug)) + 8 * (M + ug) <= cap g).
  { assert (X := CG). rewrite plus_INR, mult_INR in X. replace (INR 2) with 2 in X by (cbn; lra). replace (INR 8) with 8 in X by (cbn; lra). fold ug in X. nra. }
  assert (X4 : 0 <= INR n * (2 * (M + ug))) by (apply Rmult_le_pos; [apply pos_INR|lra]).
  assert (QB : Rabs (val x / val sz) <= M / 2000).
  { unfold Rdiv at 1. rewrite Rabs_mult, Rabs_inv, (Rabs_right (val sz)) by lra. apply (Rmult_le_reg_r (val sz)); [lra|].
    rewrite Rmult_assoc, Rinv_l, Rmult_1_r by lra. lra. }
  assert (Q1 : close (bdiv x sz) (val x / val sz) ug) by (apply (div_near g); auto; lra).
  assert (Q2 : close (bmul (bdiv x sz) n1000) (val x / val sz * val (@n1000 (Float64 pow))) (1001 * ug)).
  { eapply close_weak; [|apply (close_mul g _ _ _ _ SG Q1 F1)]; rewrite V1, (Rabs_right 1000) by lra; fold ug.
    - lra.
    - assert (M0' := M0). fold ug in M0'. lra. }
  rewrite V1 in Q2. set (q := bmul (bdiv x sz) (@n1000 (Float64 pow))) in *. destruct Q2 as (FQ & Q2).
  assert (QM : Rabs (val q) <= M).
  { assert (Z : Rabs (val x / val sz * 1000) <= M / 2) by (rewrite Rabs_mult, (Rabs_right 1000) by lra; lra).
    apply abs_out in Z. apply abs_out in Q2. assert (M0' := M0). fold ug in M0'. apply abs_in; lra. }
  assert (KX : Rabs (val q / 1000 * val sz - val x) <= 2 * (ug * Smax)).
  { replace (val q / 1000 * val sz - val x) with ((val q - val x / val sz * 1000) / 1000 * val sz) by (field; lra).
    rewrite Rabs_mult, (Rabs_right (val sz)) by lra. unfold Rdiv at 1. rewrite Rabs_mult, (Rabs_right (/ 1000)) by lra.
    assert (Z : Rabs (val q - val x / val sz * 1000) * / 1000 <= 2 * ug) by lra.
    apply Rle_trans with (2 * ug * val sz); [apply Rmult_le_compat_r; lra|]. rewrite Rmult_assoc. lra. }
  set (s' := mkSlug (sl_txt s) ((0%nat, nmul (ndiv x sz) n1000) :: sl_kern s) (nadd (sl_width s) x) (sl_state s)).
  assert (TR : slug_true s' = slug_true s + val q / 1000 * val sz).
  { unfold slug_true, s'. cbn [sl_txt sl_kern sl_state map Rsum snd]. change (nmul (ndiv x sz) n1000) with q. fold sz. field. }
  assert (K' : Forall kern_small (sl_kern s')) by (constructor; [split; [exact FQ|exact QM]|exact K]).
  split; [|split; [right; reflexivity|reflexivity]].
  split; [|repeat split; auto; cbn [s' sl_kern sl_txt List.length tl]; try lia].
  2:{ destruct (sl_kern s) as [|[[|i] y] r] eqn:EK; cbn in *; auto; unfold slug_has_init_kern in HI; rewrite EK in HI; try discriminate. constructor; [cbn; lia|exact T]. }
  assert (SC := slug_cap s' (c + 3) (conj FS (conj O1 O2)) K' ltac:(cbn [s' sl_txt sl_kern List.length]; lia) ltac:(lia)).
  change (nadd (sl_width s) x) with (badd (sl_width s) x) in s'.
  assert (AX : Rabs (slug_true s + val x) <= Rabs (slug_true s') + 2 * (ug * Smax)).
  { replace (slug_true s + val x) with (slug_true s' + - (val q / 1000 * val sz - val x)) by (rewrite TR; ring).
    eapply Rle_trans; [apply Rabs_triang|]. rewrite Rabs_Ropp. lra. }
  rewrite plus_INR in SC. replace (INR 3) with 3 in SC by (cbn; lra).
  assert (A : close (badd (sl_width s) x) (slug_true s + val x) (INR c * delta + 0 + uk)).
  { apply (close_add k _ _ _ _ _ _ SK W (exact_close x FX)). unfold delta in *. fold ug uk in *. lra. }
  destruct A as (A1 & A2). split; [exact A1|]. cbn [s' sl_width].
  replace (val (badd (sl_width s) x) - slug_true s') with ((val (badd (sl_width s) x) - (slug_true s + val x)) + - (val q / 1000 * val sz - val x)) by (rewrite TR; ring).
  eapply Rle_trans; [apply Rabs_triang|]. rewrite Rabs_Ropp, plus_INR. replace (INR 3) with 3 by (cbn; lra). unfold delta in *. fold ug uk in *. lra.
Qed.
End Widths.
