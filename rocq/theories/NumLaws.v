(** * NumLaws: the few laws of arithmetic that keep paragraphs inside their columns.

    They hold for exact rationals and for IEEE-754 binary64 numbers alike
    ([QcNum_lawful], [Float64_lawful]). *)
From Coq Require Import ZArith Bool.
From Verif Require Import Base Num.
Open Scope nat_scope.

Section Laws.
Context {NUM : Num}.
Definition le (a b : num) : Prop := nleb a b = true.
Definition lt (a b : num) : Prop := nltb a b = true.
(** [fin] tells the numbers from infinities and NaNs; [most] lines are more than
    any column holds. *)
Definition most : Z := (2 ^ 50)%Z.
Record lawful (fin : num -> Prop) : Prop := {
  law_zero : fin n0;
  law_refl : forall a, fin a -> le a a;
  law_trans : forall a b c, fin a -> fin b -> fin c -> le a b -> le b c -> le a c;
  law_lt : forall a b, fin a -> fin b -> lt a b <-> ~ le b a;
  law_lt_le : forall a b, fin a -> fin b -> lt a b -> le a b;
  law_not_zero : forall a, fin a -> lt n0 a -> neqb a n0 = false;
  (* [most * lead] may overflow, hence no [fin] for it *)
  law_below : forall a b c, fin a -> fin b -> le a b -> lt b c -> lt a c;
  (* the lines that fit *)
  law_floor : forall h lead, fin h -> fin lead -> le n0 h -> lt n0 lead -> lt h (nmul (nZ most) lead) ->
    (0 <= nfloordiv h lead)%Z /\ (le lead h -> 1 <= nfloordiv h lead)%Z
    /\ forall n, (0 <= n <= nfloordiv h lead)%Z ->
         fin (nmul (nZ n) lead) /\ le n0 (nmul (nZ n) lead) /\ le (nmul (nZ n) lead) h;
  (* what is left *)
  law_sub : forall a b, fin a -> fin b -> le n0 b -> le b a -> fin (nsub a b) /\ le n0 (nsub a b) /\ le (nsub a b) a
}.
End Laws.
