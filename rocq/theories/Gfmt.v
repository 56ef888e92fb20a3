(** * Gfmt: Python's [b"%g" % x] on exact rationals.

    Models the formatting primitive used by [Real.write] (atoms.py 87-89) and by
    all [b"%g"] templates of draw.py, state.py and words.py.  Every finite float
    is exactly a rational, so the argument is a [Q].  Simplification: the float
    [-0.0], printed [-0] by Python, is the rational 0 here, printed [0]. *)
From Verif Require Import Base.
From Coq Require Export QArith Qabs.
Open Scope Q_scope.
Open Scope nat_scope.

(** number of decimal digits *)
Definition ndig (n : N) : Z := Z.of_nat (length (dec n)).
Definition p10 (z : Z) : Q := Qpower (10 # 1) z.

(** Numerator and denominator of [(n/d) * 10^k] as naturals. *)
Definition scale10 (n d : N) (k : Z) : N * N :=
  match k with
  | Z0 => (n, d)
  | Zpos p => ((n * 10 ^ Npos p)%N, d)
  | Zneg p => (n, (d * 10 ^ Npos p)%N)
  end.

(** [n/d >= 10^k] *)
Definition geb10 (n d : N) (k : Z) : bool :=
  let (n', d') := scale10 n d (- k) in (d' <=? n')%N.

(** [floor (log10 (n/d))] for positive [n], [d]. *)
Definition log10 (n d : N) : Z :=
  let g := (ndig n - ndig d)%Z in
  if geb10 n d g then g else (g - 1)%Z.

(** round half to even of [n/d] *)
Definition round_he (n d : N) : N :=
  let q := (n / d)%N in
  let r := (n mod d)%N in
  match (2 * r ?= d)%N with
  | Lt => q
  | Gt => (q + 1)%N
  | Eq => if N.even q then q else (q + 1)%N
  end.

(** Six significant digits: [(m, X)] with [n/d ~ m * 10^(X-5)], [10^5 <= m < 10^6]. *)
Definition sig6 (n d : N) : N * Z :=
  let X := log10 n d in
  let (n', d') := scale10 n d (5 - X) in
  let m := round_he n' d' in
  if (m =? 1000000)%N then (100000%N, (X + 1)%Z) else (m, X).

(** Drop trailing zeros. *)
Fixpoint strip0 (l : bytes) : bytes :=
  match l with
  | [] => []
  | c :: r => match strip0 r with
              | [] => if (c =? 48)%N then [] else [c]
              | r' => c :: r'
              end
  end.
Definition with_frac (ip : bytes) (fp : bytes) : bytes :=
  match strip0 fp with [] => ip | fp' => ip ++ 46%N :: fp' end.

(** fixed notation of [m * 10^-k] *)
Definition fmt_fixed (m : N) (k : nat) : bytes :=
  with_frac (dec (m / 10 ^ N.of_nat k)) (decpad k (m mod 10 ^ N.of_nat k)).
(** exponent notation of [m * 10^(X-5)], e.g. [1.5e+06] *)
Definition fmt_exp (m : N) (X : Z) : bytes :=
  with_frac (dec (m / 100000)) (decpad 5 (m mod 100000))
  ++ 101%N :: (if (X <? 0)%Z then 45%N else 43%N) :: decpad 2 (Z.abs_N X).

Definition fmt_gpos (n d : N) : bytes :=
  let (m, X) := sig6 n d in
  if ((X <? -4) || (6 <=? X))%Z then fmt_exp m X
  else fmt_fixed m (Z.to_nat (5 - X)).

(** [b"%g" % x] for finite x *)
Definition fmt_g (q : Q) : bytes :=
  match Qnum q with
  | Z0 => [48%N]
  | Zpos p => fmt_gpos (Npos p) (Npos (Qden q))
  | Zneg p => 45%N :: fmt_gpos (Npos p) (Npos (Qden q))
  end.

(** Does [fmt_g] avoid exponent notation?  (computable) *)
Definition g_plain (q : Q) : bool :=
  match Qnum q with
  | Z0 => true
  | Zpos p | Zneg p =>
      let (m, X) := sig6 (Npos p) (Npos (Qden q)) in
      negb ((X <? -4) || (6 <=? X))%Z
  end.

(** The value printed: [m * 10^(X-5)], signed. *)
Definition g_value (q : Q) : Q :=
  match Qnum q with
  | Z0 => 0
  | Zpos p => let (m, X) := sig6 (Npos p) (Npos (Qden q)) in
              (inject_Z (Z.of_N m) * p10 (X - 5))%Q
  | Zneg p => let (m, X) := sig6 (Npos p) (Npos (Qden q)) in
              (- (inject_Z (Z.of_N m) * p10 (X - 5)))%Q
  end.

From Coq Require Import String.
Local Open Scope string_scope.
Example g1 : fmt_g (15 # 10) = bs "1.5". Proof. reflexivity. Qed.
Example g2 : fmt_g (1 # 3) = bs "0.333333". Proof. reflexivity. Qed.
Example g3 : fmt_g (1234567 # 1) = bs "1.23457e+06". Proof. reflexivity. Qed.
Example g4 : fmt_g (1 # 100000) = bs "1e-05". Proof. reflexivity. Qed.
Example g5 : fmt_g (-12345675 # 100) = bs "-123457". Proof. reflexivity. Qed.
Example g6 : fmt_g (9999999 # 10) = bs "1e+06". Proof. reflexivity. Qed.
Example g7 : fmt_g (842 # 1) = bs "842". Proof. reflexivity. Qed.
Example g8 : fmt_g (1 # 10000) = bs "0.0001". Proof. reflexivity. Qed.
Example g9 : fmt_g (99999949 # 1000000000000) = bs "9.99999e-05". Proof. reflexivity. Qed.
