(** * Num: Python numbers as a record of operations without laws.

    pdfje mixes [int] and [float]; a model function that computes with numbers
    takes any [Num].  Theorems about structure (no text lost, styles kept,
    references resolve) hold for every [Num], hence for IEEE doubles, provided
    the operations do not raise (float overflow in [**] is not modelled).
    Theorems about quantities are stated for the instance [QcNum] (exact
    rationals). *)
From Verif Require Import Base Gfmt.
From Coq Require Import QArith Qcanon Qround Lqa.
Open Scope nat_scope.

Class Num := {
  num : Type;
  nQ : Q -> num;                     (* numeric literals of the source *)
  nadd : num -> num -> num;
  nsub : num -> num -> num;
  nmul : num -> num -> num;
  ndiv : num -> num -> num;          (* only used after a zero check *)
  nneg : num -> num;
  npow : num -> nat -> num;
  nltb : num -> num -> bool;
  nleb : num -> num -> bool;
  neqb : num -> num -> bool;
  nfloordiv : num -> num -> Z;       (* [int(a // b)], after a zero check *)
  ntrunc : num -> Z;                 (* [int(a)] *)
  nround : num -> Z;                 (* [round(a)] *)
  nto_Q : num -> option Q            (* [None] for nan and infinities *)
}.

Declare Scope num_scope.
Delimit Scope num_scope with num.
Infix "+" := nadd : num_scope.
Infix "-" := nsub : num_scope.
Infix "*" := nmul : num_scope.
Infix "/" := ndiv : num_scope.
Infix "<?" := nltb : num_scope.
Infix "<=?" := nleb : num_scope.
Infix "=?" := neqb : num_scope.

Section Derived.
Context {NUM : Num}.
Definition nZ (z : Z) : num := nQ (inject_Z z).
Definition n0 : num := nZ 0.
Definition n1 : num := nZ 1.
Definition n1000 : num := nZ 1000.
(** [bool(x)] *)
Definition ntruthy (x : num) : bool := negb (neqb x n0).
(** [sum(l)]: left fold from the integer 0 *)
Definition nsum (l : list num) : num := fold_left nadd l n0.
(** [max(a, b)], [min(a, b)]: the first one wins ties *)
Definition nmax (a b : num) : num := if nltb a b then b else a.
Definition nmin (a b : num) : num := if nltb b a then b else a.
Definition nabs (a : num) : num := if nltb a n0 then nneg a else a.
(** [a / b] *)
Definition pdiv (a b : num) : res num :=
  if neqb b n0 then Err EZeroDiv else Ok (ndiv a b).
(** [b"%g" % x] *)
Definition fmt_num (x : num) : bytes :=
  match nto_Q x with Some q => fmt_g q | None => [110; 97; 110]%N end.
(** multiplying by a Python bool *)
Definition nbool (b : bool) : num := if b then n1 else n0.
End Derived.

(** Equality of numbers means indistinguishability (not so for [0.0 == -0.0]). *)
Definition exact_eq (NUM : Num) : Prop := forall a b : num, neqb a b = true -> a = b.

(** ** Exact rationals *)
Definition Qcltb (a b : Qc) : bool := negb (Qle_bool (this b) (this a)).
Definition Qcleb (a b : Qc) : bool := Qle_bool (this a) (this b).
Definition Qceqb (a b : Qc) : bool := Qeq_bool (this a) (this b).
(** truncation towards zero *)
Definition Qtrunc (q : Q) : Z := Z.quot (Qnum q) (Zpos (Qden q)).
(** round half to even *)
Definition Qround_he (q : Q) : Z :=
  let f := Qfloor q in
  match Qcompare (q - inject_Z f) (1 # 2) with
  | Lt => f | Gt => (f + 1)%Z | Eq => if Z.even f then f else (f + 1)%Z
  end.

#[global] Instance QcNum : Num := {|
  num := Qc;
  nQ := Q2Qc;
  nadd := Qcplus; nsub := Qcminus; nmul := Qcmult; ndiv := Qcdiv;
  nneg := Qcopp; npow := Qcpower;
  nltb := Qcltb; nleb := Qcleb; neqb := Qceqb;
  nfloordiv := fun a b => Qfloor (this (a / b)%Qc);
  ntrunc := fun a => Qtrunc (this a);
  nround := fun a => Qround_he (this a);
  nto_Q := fun a => Some (this a)
|}.

Lemma Qcltb_lt a b : Qcltb a b = true <-> (a < b)%Qc.
Proof.
  unfold Qcltb, Qclt. rewrite negb_true_iff. split; intros H.
  - apply Qnot_le_lt. intros C. apply Qle_bool_iff in C. congruence.
  - destruct (Qle_bool (this b) (this a)) eqn:E; auto.
    apply Qle_bool_iff in E. exfalso. apply (Qlt_not_le _ _ H E).
Qed.
Lemma Qcleb_le a b : Qcleb a b = true <-> (a <= b)%Qc.
Proof. unfold Qcleb, Qcle. apply Qle_bool_iff. Qed.
Lemma Qceqb_eq a b : Qceqb a b = true <-> a = b.
Proof.
  unfold Qceqb. split; intros H.
  - apply Qc_is_canon. apply Qeq_bool_iff, H.
  - subst. apply Qeq_bool_refl.
Qed.
Lemma QcNum_exact : exact_eq QcNum.
Proof. intros a b H. apply Qceqb_eq, H. Qed.
Lemma Qcltb_nlt a b : Qcltb a b = false <-> (b <= a)%Qc.
Proof. unfold Qcltb, Qcle. rewrite negb_false_iff. apply Qle_bool_iff. Qed.
Lemma Qcleb_nle a b : Qcleb a b = false <-> (b < a)%Qc.
Proof.
  rewrite <- Qcltb_lt. unfold Qcltb, Qcleb. rewrite negb_true_iff. reflexivity.
Qed.
Lemma Qceqb_neq a b : Qceqb a b = false <-> a <> b.
Proof. rewrite <- Qceqb_eq. destruct (Qceqb a b); intuition congruence. Qed.

(** ** A decision tactic for linear arithmetic on [Qc]: move to [Q], use [lra]. *)
Lemma this_plus a b : (this (a + b)%Qc == this a + this b)%Q.
Proof. apply Qred_correct. Qed.
Lemma this_opp a : (this (- a)%Qc == - this a)%Q.
Proof. apply Qred_correct. Qed.
Lemma this_minus a b : (this (a - b)%Qc == this a - this b)%Q.
Proof. unfold Qcminus. rewrite this_plus, this_opp. reflexivity. Qed.
Lemma this_mult a b : (this (a * b)%Qc == this a * this b)%Q.
Proof. apply Qred_correct. Qed.
Lemma this_Q2Qc q : (this (Q2Qc q) == q)%Q.
Proof. apply Qred_correct. Qed.
Lemma Qc_eq_this (a b : Qc) : a = b -> (this a == this b)%Q.
Proof. intros ->. reflexivity. Qed.

Ltac qc_norm :=
  repeat first
    [ rewrite this_plus in * | rewrite this_minus in * | rewrite this_mult in *
    | rewrite this_opp in * | rewrite this_Q2Qc in * ].
Ltac qc_eqs :=
  repeat match goal with
  | H : @eq Qc ?a ?b |- _ => apply Qc_eq_this in H
  | H : @eq (@num QcNum) ?a ?b |- _ => apply (Qc_eq_this a b) in H
  end.
Ltac qc_bools :=
  repeat match goal with
  | H : context [@nltb QcNum ?a ?b] |- _ => change (@nltb QcNum a b) with (Qcltb a b) in H
  | H : context [@nleb QcNum ?a ?b] |- _ => change (@nleb QcNum a b) with (Qcleb a b) in H
  | H : context [@neqb QcNum ?a ?b] |- _ => change (@neqb QcNum a b) with (Qceqb a b) in H
  end;
  repeat match goal with
  | H : Qcltb _ _ = true |- _ => apply Qcltb_lt in H
  | H : Qcltb _ _ = false |- _ => apply Qcltb_nlt in H
  | H : Qcleb _ _ = true |- _ => apply Qcleb_le in H
  | H : Qcleb _ _ = false |- _ => apply Qcleb_nle in H
  | H : Qceqb _ _ = true |- _ => apply Qceqb_eq in H
  | H : Qceqb _ _ = false |- _ => apply Qceqb_neq in H
  end.
Ltac qc :=
  cbn [nadd nsub nmul nneg nQ num QcNum] in *;
  unfold n0, n1, n1000, nZ in *;
  cbn [nadd nsub nmul nneg nQ num QcNum] in *;
  qc_bools; qc_eqs;
  unfold Qclt, Qcle in *;
  try apply Qc_is_canon;
  qc_norm; unfold inject_Z in *; try lra.

Goal forall a b c : Qc, (a <= b)%Qc -> (b < c)%Qc -> (a + 1 <= c + Q2Qc (inject_Z 1))%Qc.
Proof. intros. unfold inject_Z. assert (H1 : (this 1%Qc == 1)%Q) by reflexivity. qc. Qed.
Goal forall a b : @num QcNum, nltb a b = true -> (a + b)%num = (b + a)%num /\ nadd a n1 <> nadd b n1.
Proof. intros. split; [qc|]. intros C. qc. Qed.

Lemma Qcdiv_def a b : (a / b = a * / b)%Qc. Proof. reflexivity. Qed.
#[global] Opaque Qcplus Qcminus Qcmult Qcdiv Qcopp.
#[global] Arguments Qcpower : simpl never.
#[global] Arguments Qcltb : simpl never.
#[global] Arguments Qcleb : simpl never.
#[global] Arguments Qceqb : simpl never.
#[global] Arguments nsum : simpl never.

Lemma nsum_nil `{Num} : nsum [] = n0. Proof. reflexivity. Qed.
Lemma fold_nadd_Qc (l : list Qc) a :
  fold_left (@nadd QcNum) l a = (a + fold_left (@nadd QcNum) l 0)%Qc.
Proof.
  revert a; induction l as [|x l IH]; intros a; cbn [fold_left].
  - rewrite Qcplus_0_r. reflexivity.
  - rewrite (IH (@nadd QcNum a x)), (IH (@nadd QcNum (Q2Qc 0) x)). cbn [nadd QcNum].
    rewrite Qcplus_0_l. symmetry; apply Qcplus_assoc.
Qed.
Lemma nsum_cons_Qc (x : Qc) l : @nsum QcNum (x :: l) = (x + @nsum QcNum l)%Qc.
Proof.
  unfold nsum. cbn [fold_left]. rewrite fold_nadd_Qc.
  assert (E : @n0 QcNum = 0%Qc) by (apply Qc_is_canon; reflexivity). rewrite E.
  cbn. rewrite Qcplus_0_l. reflexivity.
Qed.
Lemma nsum_app_Qc (l r : list Qc) : @nsum QcNum (l ++ r) = (@nsum QcNum l + @nsum QcNum r)%Qc.
Proof.
  induction l as [|x l IH]; cbn [app].
  - change (@nsum QcNum nil) with (@n0 QcNum). qc.
  - rewrite !nsum_cons_Qc, IH. apply Qcplus_assoc.
Qed.
