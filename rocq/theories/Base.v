(** * Base: bytes, characters, exceptions as values, decimal printing.

    Nothing here models a particular function of pdfje; these are the Python
    primitives the models are written in. *)
From Coq Require Export List Arith NArith ZArith Lia Bool.
From Coq Require Export ZifyBool ZifyNat ZifyN.
From Coq Require Import String Ascii.
Export ListNotations.

#[export] Set Warnings "-notation-overridden".
Global Arguments N.add : simpl never.
Global Arguments N.sub : simpl never.
Global Arguments N.mul : simpl never.
Global Arguments N.div : simpl never.
Global Arguments N.modulo : simpl never.
Global Arguments N.pow : simpl never.
Global Arguments N.eqb : simpl never.
Global Arguments N.leb : simpl never.
Global Arguments N.ltb : simpl never.
Global Arguments Z.add : simpl never.
Global Arguments Z.sub : simpl never.
Global Arguments Z.mul : simpl never.
Global Arguments Z.div : simpl never.
Global Arguments Z.modulo : simpl never.
Global Arguments Z.pow : simpl never.
Global Arguments Z.of_nat : simpl never.
Global Arguments N.of_nat : simpl never.

(** A byte is an [N] (the model does not enforce < 256; the specification-side
    readers treat bytes as numbers, and theorems that need the range say so). *)
Notation byte := N (only parsing).
Notation bytes := (list N) (only parsing).
(** A Python character is its code point; a Python [str] a list of them. *)
Notation char := N (only parsing).
Notation str := (list N) (only parsing).

(** Bytes (or ASCII text) of a Coq string literal. *)
Definition bs (s : string) : list N := map N_of_ascii (list_ascii_of_string s).

#[global] Arguments bs : simpl never.

Definition is_byte (c : N) : Prop := (c < 256)%N.

(** Python exceptions that matter. [EFuel] stands for non-termination: it is
    never raised by the code, it is the value of a loop that ran out of the
    model's fuel. *)
Inductive exn :=
| ERuntime        (* RuntimeError *)
| EAssertion      (* AssertionError *)
| EType           (* TypeError *)
| EValue          (* ValueError (or a subclass) *)
| EIndex          (* IndexError *)
| EZeroDiv        (* ZeroDivisionError *)
| ENoFeasible     (* knuth_plass.NoFeasibleBreaks *)
| EStop           (* StopIteration *)
| ENotImpl        (* NotImplementedError *)
| EFuel.          (* the loop did not finish *)

Inductive res (A : Type) := Ok (a : A) | Err (e : exn).
Arguments Ok {A} a.
Arguments Err {A} e.

Definition bind {A B} (m : res A) (f : A -> res B) : res B :=
  match m with Ok a => f a | Err e => Err e end.
Definition rmap {A B} (f : A -> B) (m : res A) : res B :=
  match m with Ok a => Ok (f a) | Err e => Err e end.
Notation "'do' x <- m ; f" := (bind m (fun x => f))
  (at level 200, x pattern, m at level 100, f at level 200, right associativity).

Fixpoint mapM {A B} (f : A -> res B) (l : list A) : res (list B) :=
  match l with
  | [] => Ok []
  | x :: r => do y <- f x; do ys <- mapM f r; Ok (y :: ys)
  end.

Definition assert_ (b : bool) : res unit := if b then Ok tt else Err EAssertion.

Lemma Ok_inj {A} (a b : A) : Ok a = Ok b -> a = b.
Proof. congruence. Qed.

Lemma bind_ok {A B} (m : res A) (f : A -> res B) b :
  bind m f = Ok b -> exists a, m = Ok a /\ f a = Ok b.
Proof. destruct m; simpl; [eauto | discriminate]. Qed.

Lemma mapM_ok {A B} (f : A -> res B) l ys :
  mapM f l = Ok ys -> Forall2 (fun x y => f x = Ok y) l ys.
Proof.
  revert ys; induction l as [|x l IH]; simpl; intros ys H.
  - injection H as <-. constructor.
  - destruct (f x) eqn:E; simpl in H; [|discriminate].
    destruct (mapM f l) eqn:E2; simpl in H; [|discriminate].
    injection H as <-. constructor; auto.
Qed.

(** Decimal digits of a natural number, most significant first: [b"%i" % n]
    for [n >= 0]. *)
Fixpoint dec_fuel (f : nat) (n : N) (acc : bytes) : bytes :=
  match f with
  | O => acc
  | S f' => if (n <? 10)%N then (48 + n)%N :: acc
            else dec_fuel f' (n / 10)%N ((48 + n mod 10)%N :: acc)
  end.
Definition dec (n : N) : bytes := dec_fuel (S (N.size_nat n)) n [].
(** [b"%i" % z]. *)
Definition decZ (z : Z) : bytes :=
  match z with
  | Z0 => dec 0
  | Zpos p => dec (Npos p)
  | Zneg p => 45%N :: dec (Npos p)
  end.

(** [b"%0ki" % n] for [n >= 0]: left-padded with zeros to width [k]. *)
Definition decpad (k : nat) (n : N) : bytes :=
  repeat 48%N (k - List.length (dec n)) ++ dec n.

(** Upper-case hexadecimal digits, and [b"%04X" % n]. *)
Definition hexdigitU (n : N) : N := if (n <? 10)%N then (48 + n)%N else (55 + n)%N.
Definition hexdigitL (n : N) : N := if (n <? 10)%N then (48 + n)%N else (87 + n)%N.
Fixpoint hexU_fuel (f : nat) (n : N) (acc : bytes) : bytes :=
  match f with
  | O => acc
  | S f' => if (n <? 16)%N then hexdigitU n :: acc
            else hexU_fuel f' (n / 16)%N (hexdigitU (n mod 16) :: acc)
  end.
Definition hexU (n : N) : bytes := hexU_fuel (S (N.size_nat n)) n [].
Definition hexpadU (k : nat) (n : N) : bytes :=
  repeat 48%N (k - List.length (hexU n)) ++ hexU n.

(** Value of a digit string (specification of decimal numerals). *)
Definition is_digit (c : N) : bool := ((48 <=? c) && (c <=? 57))%N.
Definition digits_val (l : bytes) : N := fold_left (fun a c => 10 * a + (c - 48))%N l 0%N.

(* ------------------------------------------------------------------ *)
Ltac Zify.zify_post_hook ::= Z.div_mod_to_equations.

Lemma size_nat_pow n : (n < 2 ^ N.of_nat (S (N.size_nat n)))%N.
Proof.
  rewrite Nat2N.inj_succ, N.pow_succ_r'.
  assert (n < 2 ^ N.of_nat (N.size_nat n) \/ n = 0)%N; [|lia].
  destruct n as [|p]; auto. left. simpl N.size_nat.
  induction p as [p IH|p IH|]; simpl Pos.size_nat;
    rewrite ?Nat2N.inj_succ, ?N.pow_succ_r'; simpl N.of_nat; lia.
Qed.

Lemma dec_fuel_app f n acc : dec_fuel f n acc = dec_fuel f n [] ++ acc.
Proof.
  revert n acc; induction f as [|f IH]; intros n acc; simpl; auto.
  destruct (n <? 10)%N; auto.
  rewrite IH. rewrite (IH _ [_]). rewrite <- app_assoc. reflexivity.
Qed.

Lemma digits_val_app l c : digits_val (l ++ [c]) = (10 * digits_val l + (c - 48))%N.
Proof. unfold digits_val. rewrite fold_left_app. reflexivity. Qed.

Lemma dec_fuel_spec f n : (n < 2 ^ N.of_nat f)%N -> (0 < f)%nat ->
  let d := dec_fuel f n [] in
  digits_val d = n /\ Forall (fun c => is_digit c = true) d /\ d <> [] /\
  (n <> 0%N -> hd 48%N d <> 48%N).
Proof.
  revert n; induction f as [|f IH]; intros n Hf Hp; [lia|].
  cbn zeta. simpl.
  destruct (N.ltb_spec n 10) as [H|H].
  - repeat split.
    + unfold digits_val. cbn [fold_left]. lia.
    + constructor; auto. unfold is_digit. lia.
    + discriminate.
    + simpl. lia.
  - rewrite Nat2N.inj_succ, N.pow_succ_r' in Hf.
    assert (Hf0 : (0 < f)%nat) by (destruct f; [change (2 ^ N.of_nat 0)%N with 1%N in Hf; lia | lia]).
    destruct (IH (n / 10)%N ltac:(lia) Hf0) as (Hv & Hd & Hn & Hh).
    rewrite dec_fuel_app. repeat split.
    + rewrite digits_val_app, Hv. lia.
    + apply Forall_app; split; auto. constructor; auto. unfold is_digit.
      lia.
    + destruct (dec_fuel f (n / 10) []); discriminate.
    + intros _. destruct (dec_fuel f (n / 10) []) eqn:E; [congruence|].
      simpl in *. apply Hh. lia.
Qed.

Lemma dec_val n : digits_val (dec n) = n.
Proof. apply dec_fuel_spec; [apply size_nat_pow | lia]. Qed.
Lemma dec_digits n : Forall (fun c => is_digit c = true) (dec n).
Proof. apply dec_fuel_spec; [apply size_nat_pow | lia]. Qed.
Lemma dec_nonnil n : dec n <> [].
Proof. apply dec_fuel_spec; [apply size_nat_pow | lia]. Qed.
Lemma dec_nolead n : (n <> 0)%N -> hd 48%N (dec n) <> 48%N.
Proof. apply dec_fuel_spec; [apply size_nat_pow | lia]. Qed.

Lemma digits_val_repeat0 k l : digits_val (repeat 48%N k ++ l) = digits_val l.
Proof.
  unfold digits_val. rewrite fold_left_app. f_equal.
  induction k; simpl; auto.
Qed.

Lemma decpad_val k n : digits_val (decpad k n) = n.
Proof. unfold decpad. rewrite digits_val_repeat0. apply dec_val. Qed.

Lemma repeat_digits k : Forall (fun c => is_digit c = true) (repeat 48%N k).
Proof. induction k; simpl; constructor; auto. Qed.

Lemma decpad_digits k n : Forall (fun c => is_digit c = true) (decpad k n).
Proof. apply Forall_app; split; [apply repeat_digits | apply dec_digits]. Qed.

Lemma digits_val_bound l : Forall (fun c => is_digit c = true) l ->
  (digits_val l < 10 ^ N.of_nat (List.length l))%N.
Proof.
  induction l as [|c l IH] using rev_ind; intros H.
  - reflexivity.
  - apply Forall_app in H as [H1 H2]. inversion_clear H2. specialize (IH H1).
    rewrite digits_val_app, app_length. simpl List.length.
    replace (N.of_nat (List.length l + 1)) with (N.succ (N.of_nat (List.length l))) by lia.
    rewrite N.pow_succ_r'. unfold is_digit in H. lia.
Qed.

Lemma digits_val_cons c l :
  digits_val (c :: l) = ((c - 48) * 10 ^ N.of_nat (List.length l) + digits_val l)%N.
Proof.
  induction l as [|d l IH] using rev_ind.
  - unfold digits_val. cbn [fold_left List.length]. change (10 ^ N.of_nat 0)%N with 1%N. lia.
  - rewrite app_comm_cons, !digits_val_app, IH, app_length. simpl List.length.
    replace (N.of_nat (List.length l + 1)) with (N.succ (N.of_nat (List.length l))) by lia.
    rewrite N.pow_succ_r'. lia.
Qed.

Lemma dec_length_le k n : (n < 10 ^ N.of_nat k)%N -> (0 < k)%nat -> (List.length (dec n) <= k)%nat.
Proof.
  intros H Hk.
  destruct (N.eq_dec n 0) as [->|Hn]; [change (List.length (dec 0)) with 1; lia|].
  pose proof (dec_val n) as Hv. pose proof (dec_nolead n Hn) as Hh.
  pose proof (dec_digits n) as Hd.
  destruct (dec n) as [|c l] eqn:E; [simpl; lia|].
  rewrite digits_val_cons in Hv. simpl in Hh. inversion_clear Hd.
  unfold is_digit in H0.
  assert (1 * 10 ^ N.of_nat (List.length l) <= n)%N.
  { rewrite <- Hv. assert (1 <= c - 48)%N by lia.
    pose proof (N.mul_le_mono_r 1 (c - 48) (10 ^ N.of_nat (List.length l)) H2). lia. }
  simpl. destruct (Nat.le_gt_cases (S (List.length l)) k); auto.
  assert (10 ^ N.of_nat k <= 10 ^ N.of_nat (List.length l))%N.
  { apply N.pow_le_mono_r; lia. }
  lia.
Qed.

Lemma decpad_length k n : (n < 10 ^ N.of_nat k)%N -> (0 < k)%nat -> List.length (decpad k n) = k.
Proof.
  intros H Hk. pose proof (dec_length_le k n H Hk).
  unfold decpad. rewrite app_length, repeat_length. lia.
Qed.

Lemma Forall2_imp {A B} (P Q : A -> B -> Prop) l r :
  (forall a b, P a b -> Q a b) -> Forall2 P l r -> Forall2 Q l r.
Proof. intros H; induction 1; constructor; auto. Qed.
Lemma Forall2_len {A B} (P : A -> B -> Prop) l r :
  Forall2 P l r -> List.length l = List.length r.
Proof. induction 1; cbn; auto. Qed.
Lemma NoDup_snoc {A} (l : list A) x : NoDup l -> ~ In x l -> NoDup (l ++ [x]).
Proof.
  induction l as [|y l IH]; cbn; intros Hn Hx; [repeat constructor; auto|].
  inversion_clear Hn as [|? ? Hy Hn']. constructor; auto.
  intros C. apply in_app_or in C as [C|[C|[]]]; auto.
Qed.
