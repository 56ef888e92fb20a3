(** * C93: the ragged lines of the optimal layout, measured in doubles.  The optimal algorithm
    keeps one running width for the whole paragraph and judges a line by the difference of two
    of its values; still, a line it puts in a column is, by its exact width, at most a tiny
    rounding error wider than the column - the error of the pieces of that line alone. *)
From Coq Require Import ZArith QArith Bool Reals Qreals String.
From Flocq Require Import Core IEEE754.BinarySingleNaN.
From Verif Require Import Base Num Float64 FloatProofs NumInstances RoundErr Fonts State TextSpec StateProofs
  Words WordsSpec WordProofs WordOps Parse Firstfit FirstfitProofs LineSpec Common FontsUsed Layout LayoutTotal Builtins BuiltinTables Properties_Words
  Properties_Builtins Properties_Firstfit KnuthPlass Optimum OptimumProofs OptimumLines Properties_Optimum FloatLines FloatWidths FloatText FloatPara FloatTotal FloatOptimum Properties_Float Properties_Round.
From Coq Require Import Lra Lia.
Local Open Scope string_scope. Local Open Scope list_scope.
Open Scope R_scope.
Local Notation real x := (@B2R 53 1024 x).
Local Notation finite x := (@is_finite 53 1024 x = true).

Theorem C93_ragged_rounding : forall pow (ENV : Env (Float64 pow)) (M Smin Smax : R) (g k : Z) (n : nat)
    fuel ps st cmd ws ex (indent : @num (Float64 pow)) ws' (cols : nat -> @num (Float64 pow) * @num (Float64 pow)) ae lead av tolerance P out,
  ample M Smax g k n -> 0 < Smin ->
  metrics_within pow M -> psg_in (size_within pow Smin Smax) ps -> st_in (size_within pow Smin Smax) st ->
  finite indent -> 2000 * Rabs (real indent) <= M * Smin ->
  into_words ps st = Ok (cmd, ws, ex) -> ws <> [] -> indent_first ws indent = Ok ws' ->
  Forall (fun w => Forall (fun b => (fragment_length pow b <= n)%nat) (wl_boxes w)) ws ->
  finite lead -> 0 < real lead ->
  (forall i, finite (snd (cols i)) /\ 0 <= real (snd (cols i)) < IZR (2 ^ 50) * real lead) ->
  (forall i, finite (fst (cols i))
     /\ Rabs (real (fst (cols i))) + INR (S (pieces pow ws)) * (fragment_most M Smax n + point_error Smax g k n) <= bpow radix2 k) ->
  opt_shape fuel ws' cols ae lead av true tolerance P = Ok out ->
  Forall (fun p : @num (Float64 pow) * oline =>
    exact_line pow (ol_words (snd p)) <= real (fst p) + INR (S (pieces pow (ol_words (snd p)))) * point_error Smax g k n) (placed cols out).
Proof.
  intros pow ENV M Smin Smax g k n fuel ps st cmd ws ex x ws' cols ae lead av tol P out (A1 & A2 & A3 & A4 & A5 & A6 & A7) SM (W & K) PS S FX HX E NE I L FL L0 HT C SH.
  destruct (para_good pow M Smin Smax g k n A1 A2 W K A4 A3 A5 A7 SM x FX HX _ _ _ _ _ _ PS S E I L) as (G1 & G2 & G3).
  assert (S0 : 0 < Smax) by (destruct S as (_ & S1 & S2); lra). destruct (facts M Smax g k A4 S0) as (D1 & D2).
  assert (BP : 0 <= B_box M Smax n) by (unfold B_box; apply Rmult_le_pos; [apply pos_INR|lra]).
  assert (EK : 2 * ulp2 k <= e_box Smax g k n).
  { unfold e_box. assert (U := ulp2_pos k). assert (U2 := ulp2_pos g). assert (X : ulp2 k <= FloatWidths.delta Smax g k) by (unfold FloatWidths.delta; assert (0 < ulp2 g * Smax) by (apply Rmult_lt_0_compat; lra); lra).
    assert (Y : 2 <= INR (11 * n + 30)) by (replace 2 with (INR 2) by reflexivity; apply le_INR; lia).
    apply Rmult_le_compat; lra. }
  assert (R := ragged_lines_near pow k (e_box Smax g k n) (B_box M Smax n) (box_true pow) (gbox pow M Smax g k n) (space_true pow) (gspace pow M Smax) A2 EK BP).
  eapply Forall_impl; [|eapply R; [| | |exact G1| |exact (G3 NE)| | |exact SH]]; cbn beta.
  - intros p H. rewrite exact_line_true. exact H.
  - intros b H. apply (gbox_width pow M Smax g k n A2 W A4 A3 A7 b H).
  - intros b H. apply (gbox_hyphen pow M Smax g k n A1 A2 W K A4 A3 A5 A6 A7 b H).
  - intros t H. apply (gspace_width pow M Smax g k n A1 A2 W A4 A3 A5 A6 A7 t H).
  - apply pw_flat. eapply pw_indented; [eapply pw_parsed, E|exact I].
  - intros i. destruct (HT i) as (H1 & H2 & H3). apply (floordiv_ok pow); auto.
  - intros i. destruct (C i) as (C1 & C2). split; [exact C1|]. change (FloatOptimum.frags pow ws') with (FloatPara.frags pow ws'). rewrite G2. exact C2.
Qed.
Print Assumptions C93_ragged_rounding.
(** ** With numbers: as in C90_first_fit_fits. *)
Theorem C93_ragged_fits : forall pow (ENV : Env (Float64 pow))
    fuel ps st cmd ws ex (indent : @num (Float64 pow)) ws' (cols : nat -> @num (Float64 pow) * @num (Float64 pow)) ae lead av tolerance P out,
  metrics_within pow 8000 -> psg_in (size_within pow 6 24) ps -> st_in (size_within pow 6 24) st ->
  finite indent -> Rabs (real indent) <= 24 ->
  into_words ps st = Ok (cmd, ws, ex) -> ws <> [] -> indent_first ws indent = Ok ws' ->
  Forall (fun w => Forall (fun b => (fragment_length pow b <= 32)%nat) (wl_boxes w)) ws ->
  (Z.of_nat (pieces pow ws) <= 10000)%Z -> finite lead -> 1 <= real lead ->
  (forall i, finite (fst (cols i)) /\ Rabs (real (fst (cols i))) <= 10000 /\ finite (snd (cols i)) /\ 0 <= real (snd (cols i)) <= 10000) ->
  opt_shape fuel ws' cols ae lead av true tolerance P = Ok out ->
  Forall (fun p : @num (Float64 pow) * oline =>
    exact_line pow (ol_words (snd p)) <= real (fst p) + INR (S (pieces pow (ol_words (snd p)))) / 100000) (placed cols out).
Proof.
  intros pow ENV fuel ps st cmd ws ex x ws' cols ae lead av tol P out MW PS S FX HX E NE I L N FL L1 C SH.
  assert (PE : 0 <= point_error 24 20 27 32 <= / 100000).
  { unfold point_error. change (20 - 53)%Z with (- (33))%Z. change (27 - 53)%Z with (- (26))%Z. rewrite !pow2n by lia.
    replace (INR (11 * 32 + 30)) with 382 by (rewrite INR_IZR_INZ; reflexivity). cbn [Z.pow Z.pow_pos Pos.iter]. cbn -[IZR Rplus Rmult Rinv Rle]. split; lra. }
  assert (R := C93_ragged_rounding pow ENV 8000 6 24 20 27 32 fuel ps st cmd ws ex x ws' cols ae lead av tol P out).
  assert (NR : INR (pieces pow ws) <= 10000) by (rewrite INR_IZR_INZ; apply IZR_le, N).
  eapply Forall_impl; [|apply R]; auto; try lra.
  - cbn beta. intros p H. eapply Rle_trans; [exact H|]. apply Rplus_le_compat_l. unfold Rdiv. apply Rmult_le_compat_l; [apply pos_INR|apply PE].
  - unfold ample. change (20 - 53)%Z with (- (33))%Z. change (27 - 53)%Z with (- (26))%Z. rewrite !pow2n, !pow2 by lia.
    replace (INR (2 * 32 + 8)) with 72 by (rewrite INR_IZR_INZ; reflexivity). replace (INR (12 * 32 + 60)) with 444 by (rewrite INR_IZR_INZ; reflexivity).
    cbn -[IZR Rplus Rmult Rinv Rle Z.le]. repeat split; try lia; lra.
  - intros i. destruct (C i) as (_ & _ & C3 & C4). split; [exact C3|]. change (2 ^ 50)%Z with 1125899906842624%Z. lra.
  - intros i. destruct (C i) as (C1 & C2 & _). split; [exact C1|].
    assert (X : INR (Datatypes.S (pieces pow ws)) * (fragment_most 8000 24 32 + point_error 24 20 27 32) <= 10001 * (13056 + 1)).
    { assert (Y : 0 <= fragment_most 8000 24 32 + point_error 24 20 27 32 <= 13056 + 1).
      { unfold fragment_most. replace (INR (2 * 32 + 4)) with 68 by (rewrite INR_IZR_INZ; reflexivity). split; lra. }
      apply Rmult_le_compat; [apply pos_INR|apply Y|rewrite S_INR; lra|apply Y]. }
    rewrite pow2 by lia. change (2 ^ 27)%Z with 134217728%Z. lra.
Qed.
Print Assumptions C93_ragged_fits.

(** ** The hypotheses are met, and an allowance is needed: "i is" is laid out in a column of
    14.664 points, though the double 14.664 is a little less than its exact width. *)
#[local] Existing Instance ex_num.
#[local] Existing Instance dbl_std.
Definition opt_params : @params ex_num := mkParams (nZ 1000) (nZ 1000) (nZ 1000).
Definition opt_ws : list wordlike := match indent_first dbl_ws n0 with Ok ws => ws | Err _ => [] end.
Definition opt_out : res (list (list oline)) := opt_shape 10 opt_ws (fun _ => (dbl_W, nZ 100)) false (nZ 15) false true (nZ 1) opt_params.
Definition opt_oline : @oline ex_num := match opt_out with Ok [[l]] => l | _ => @mkOLine ex_num [] n0 end.
Lemma one_oline (r : res (list (list (@oline ex_num)))) d : match r with Ok [[_]] => true | _ => false end = true -> r = Ok [[match r with Ok [[l]] => l | _ => d end]].
Proof. destruct r as [[|[|l [|]] [|]]|]; try discriminate. reflexivity. Qed.
(* (the proofs inside doubles are not to be computed) *)
Lemma words_ok (r : res (list (@wordlike ex_num))) : match r with Ok _ => true | _ => false end = true -> r = Ok (match r with Ok ws => ws | Err _ => [] end).
Proof. destruct r; [reflexivity|discriminate]. Qed.
Lemma words_some (l : list (@wordlike ex_num)) : match l with [] => false | _ => true end = true -> l <> [].
Proof. destruct l; [discriminate|intros _ E; discriminate]. Qed.
Example C93_example :
  indent_first dbl_ws n0 = Ok opt_ws /\ dbl_ws <> [] /\ opt_out = Ok [[opt_oline]]
  /\ rmap (map (map (fun l => map fst (measured_all (ol_words l))))) opt_out = Ok [[str_of "i is"]]
  /\ placed (fun _ => (dbl_W, nZ 100)) [[opt_oline]] = [(dbl_W, opt_oline)]
  /\ real dbl_W < exact_line ex_pow (ol_words opt_oline) <= real dbl_W + / 1000000000000000.
Proof.
  split; [apply words_ok; vm_compute; reflexivity|]. split; [apply words_some; vm_compute; reflexivity|]. split; [apply one_oline; vm_compute; reflexivity|]. split; [vm_compute; reflexivity|]. split; [reflexivity|].
  rewrite q_line_ok, frac_real. split.
  - apply Qreals.Qlt_Rlt. vm_compute. reflexivity.
  - replace (/ 1000000000000000) with (Q2R (1 # 1000000000000000)) by (unfold Q2R; cbn; lra). rewrite <- Q2R_plus. apply Qreals.Qle_Rle. vm_compute. discriminate.
Qed.
