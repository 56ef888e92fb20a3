(** * Float64: Python's [float], IEEE-754 binary64, as a [Num].

    Flocq's binary64 numbers with one NaN (Python does not tell NaNs apart),
    rounding to nearest-even.  Python's [int]s are taken as floats, which is
    exact below 2^53 in absolute value.  [**] is left open (the C library's
    [pow] is not fixed by the standard): everything holds for any [pow]. *)
From Coq Require Import ZArith Bool QArith.
From Flocq Require Import IEEE754.BinarySingleNaN.
From Verif Require Import Base Num.
Open Scope Z_scope.

Definition prec_ok : FLX.Prec_gt_0 53 := eq_refl.
Definition emax_ok : Prec_lt_emax 53 1024 := eq_refl.
#[global] Existing Instance prec_ok.
#[global] Existing Instance emax_ok.
Definition b64 := binary_float 53 1024.
Definition bof (z : Z) : b64 := binary_normalize 53 1024 prec_ok emax_ok mode_NE z 0 false.
Definition badd : b64 -> b64 -> b64 := Bplus mode_NE.
Definition bsub : b64 -> b64 -> b64 := Bminus mode_NE.
Definition bmul : b64 -> b64 -> b64 := Bmult mode_NE.
Definition bdiv : b64 -> b64 -> b64 := Bdiv mode_NE.
Definition bhalf : b64 := bdiv (bof 1) (bof 2).
(** C's [fmod]: the exact remainder, with the sign of the dividend *)
Definition bfmod (x y : b64) : b64 :=
  match x, y with
  | B754_finite sx mx ex _, B754_finite _ my ey _ =>
      let e := Z.min ex ey in
      let r := (Z.pos mx * 2 ^ (ex - e)) mod (Z.pos my * 2 ^ (ey - e)) in
      binary_normalize 53 1024 prec_ok emax_ok mode_NE (if sx then - r else r) e sx
  | B754_zero _, B754_finite _ _ _ _ => x
  | B754_finite _ _ _ _, B754_infinity _ => x
  | B754_zero _, B754_infinity _ => x
  | _, _ => B754_nan
  end.
(** C's [floor], as an integer *)
Definition bfloor (x : b64) : Z :=
  match x with
  | B754_finite s m e _ =>
      let z := if s then Z.neg m else Z.pos m in
      if 0 <=? e then z * 2 ^ e else z / 2 ^ (- e)
  | _ => 0
  end.
(** CPython's [float_floor_div] (Objects/floatobject.c), then [int]; the divisor is not
    zero.  (0 where [int] would raise: infinities and NaN.) *)
Definition bfloordiv (x y : b64) : Z :=
  let m := bfmod x y in
  let d0 := bdiv (bsub x m) y in
  let d := if negb (Beqb m (bof 0)) && xorb (Bltb y (bof 0)) (Bltb m (bof 0)) then bsub d0 (bof 1) else d0 in
  if Beqb d (bof 0) then 0
  else let f := bof (bfloor d) in
       let f' := if Bltb bhalf (bsub d f) then badd f (bof 1) else f in
       Btrunc f'.
Definition bto_Q (x : b64) : option Q :=
  match x with
  | B754_zero _ => Some 0%Q
  | B754_finite s m e _ =>
      let z := if s then Z.neg m else Z.pos m in
      Some (if 0 <=? e then inject_Z (z * 2 ^ e) else z # (2 ^ Z.to_pos (- e)))
  | _ => None
  end.
Definition Float64 (pow : b64 -> nat -> b64) : Num := {|
  num := b64;
  nQ := fun q => bdiv (bof (Qnum q)) (bof (Z.pos (Qden q)));
  nadd := badd; nsub := bsub; nmul := bmul; ndiv := bdiv;
  nneg := Bopp; npow := pow;
  nltb := @Bltb 53 1024; nleb := @Bleb 53 1024; neqb := @Beqb 53 1024;
  nfloordiv := bfloordiv;
  ntrunc := @Btrunc 53 1024;
  nround := fun a => Btrunc (Bnearbyint mode_NE a);
  nto_Q := bto_Q
|}.
