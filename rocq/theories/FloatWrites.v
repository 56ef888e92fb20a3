(** * FloatWrites: in doubles, what is laid out can be written. *)
From Coq Require Import ZArith Bool Reals.
From Flocq Require Import Core IEEE754.BinarySingleNaN.
From Verif Require Import Base Num Float64 FloatProofs NumInstances RoundErr Fonts State TextSpec StateProofs
  Words WordsSpec WordProofs WordOps Parse Firstfit FirstfitProofs LineSpec Common FontsUsed Layout OptimumTotal Properties_Optimum LayoutTotal SuccessProofs NumLaws Render TextBlock Style Draw LayoutSpec LayoutLaws LawTotal Properties_Firstfit FloatLines FloatWidths FloatText FloatPara FloatTotal NumbersUsed WritesTotal.
From Coq Require Import Lra Lia.
Open Scope R_scope.
Section Writes.
Context (pow : b64 -> nat -> b64) {ENV : Env (Float64 pow)}.
#[local] Hint Extern 0 Num => exact (Float64 pow) : typeclass_instances.
Lemma fin_adj (z : @num (Float64 pow)) : fin z -> @adj (Float64 pow) z.
Proof. intros F. unfold adj. destruct z; try discriminate; cbn; discriminate. Qed.
Lemma fin_neg_adj (z : @num (Float64 pow)) : fin z -> @adj (Float64 pow) (nneg z).
Proof. intros F. unfold adj. destruct z; try discriminate; cbn; discriminate. Qed.
Lemma zero_adj : @adj (Float64 pow) (nneg n0).
Proof. apply fin_neg_adj. apply (nZ64 pow 0). lia. Qed.
Context (M Smin Smax : R) (g k : Z) (n m : nat) (most_pieces : nat).
Hypothesis SG : sane g.
Hypothesis SK : sane k.
Hypothesis WID : forall f c, fin (charwidth f c) /\ Rabs (val (charwidth f c)) <= M.
Hypothesis KER : forall f a b, fin (charkern f a b) /\ Rabs (val (charkern f a b)) <= M.
Hypothesis M0 : 2004 * ulp2 g <= M.
Hypothesis N1 : (1 <= n)%nat.
Hypothesis CG : INR (2 * n + 8) * (M + ulp2 g) <= cap g.
Hypothesis CK1 : 4 * (M * Smax) <= cap k.
Hypothesis CK2 : INR (12 * n + 60) * (M * Smax / 1000 + delta Smax g k) <= cap k.
Hypothesis SM0 : 0 < Smin.
Notation sized := (sized pow Smin Smax).
Notation pgood := (pgood pow M Smax g k n).
Notation any := (fun _ : @num (Float64 pow) => True).
Notation anyc := (fun _ : char => True).
Lemma kern_adj : forall f a b, @adj (Float64 pow) (nneg (charkern f a b)).
Proof. intros f a b. apply fin_neg_adj. apply KER. Qed.
Lemma good_adj w : pgood w -> NumbersUsed.wl_in (@adj (Float64 pow)) any anyc w.
Proof.
  assert (SL : forall s c, near pow M Smax g k c s -> NumbersUsed.slug_in (@adj (Float64 pow)) any anyc s).
  { intros s c (_ & _ & K & _). split; [apply st_any|]. split; [|apply Forall_forall; auto].
    eapply Forall_impl; [|exact K]. intros e (F & _). apply fin_neg_adj, F. }
  assert (BX : forall b, gbox pow M Smax g k n b -> NumbersUsed.box_in (@adj (Float64 pow)) any anyc b).
  { intros [s|l st] (_ & B); [eapply SL; apply B|]. destruct B as (B & _). split; [|apply st_any].
    eapply Forall_impl; [|exact B]. cbn beta. intros p (_ & NR). split; [eapply SL; exact NR|apply cmd_any]. }
  unfold FloatPara.pgood, wl_good. induction w as [b|x|w IH c]; cbn [wl_boxes wl_end NumbersUsed.wl_in]; intros (B & T).
  - inversion B; subst. apply BX. assumption.
  - split; [eapply Forall_impl; [|exact B]; exact BX|]. split; [apply st_any|]. destruct (w_tail x) as [t|]; [|exact Logic.I].
    cbn [option_map] in T. destruct T as (_ & _ & _ & F & _). cbn [fst] in F. apply fin_neg_adj, F.
  - split; [apply IH; split; assumption|apply cmd_any].
Qed.
Context (p : @para (Float64 pow)).
Hypothesis FF : p_optimal p = None.
Hypothesis FX : fin (p_indent p).
Hypothesis HX : 2000 * Rabs (val (p_indent p)) <= M * Smin.
(** The lines of a paragraph that is not justified *)
Lemma unjustified_writes lead : is_justify (p_align p) = false ->
  lays (fun _ l => words_finite (tl_words l)) sized (FloatTotal.modest pow n m most_pieces) (suitable pow M Smax g k n most_pieces) p lead.
Proof.
  intros NJ gr st cmd ws ex ws' cs ae fuel chunks A P S E I DC SH i ls NT.
  destruct (A st cmd ws ex E) as (A1 & _).
  assert (G1 : Forall pgood ws').
  { eapply para_good with (x := p_indent p) (ws := ws) (ps := gr) (Smin := Smin); try exact E; try exact I; try exact A1; try assumption. }
  assert (W : NumbersUsed.wls_in (@adj (Float64 pow)) any anyc ws') by (eapply Forall_impl; [|exact G1]; exact good_adj).
  unfold shape in SH. rewrite FF, NJ in SH. apply rmap_inv in SH as (out & SH & ->).
  apply (NumbersUsed.ff_shape_in (@adj (Float64 pow)) any zero_adj kern_adj anyc Logic.I) in SH; [|exact W].
  rewrite nth_error_map in NT. destruct (nth_error out i) as [l0|] eqn:NE; [|discriminate]. injection NT as <-.
  apply nth_error_In in NE. rewrite Forall_forall in SH. specialize (SH l0 NE). apply Forall_map. exact SH.
Qed.
End Writes.
