(** * C92: wider columns never take more lines (first fit, exact arithmetic). *)
From Coq Require Import QArith Qcanon Qround Lqa String.
From Verif Require Import Base Gfmt FontSpec FontProofs Num Fonts State TextSpec StateProofs
  Words WordsSpec WordProofs WordOps Parse Render RenderSpec RenderProofs WordWidth LineSpec Firstfit FirstfitProofs FirstfitWidth
  KnuthPlass KPSpec KPProofs Properties_KnuthPlass Optimum OptimumProofs OptimumWidth OptimumLines OptimumTotal
  Properties_Words Properties_Firstfit Properties_Optimum OptimalProofs.
From Verif Require Import GreedySpec GreedyProofs Properties_Greedy.
From Coq Require Import Lia.
Local Open Scope string_scope.
Local Open Scope list_scope.
Open Scope nat_scope.

Lemma full_fits (ENV : Env QcNum) (W : Qc) : forall widths lns, Forall (fun w => (w <= W)%Qc) widths -> all_full widths lns ->
  (forall ln p, In ln lns -> In p (snd ln) -> forall k w, In w widths -> (line_width k [p] <= w)%Qc) ->
  Forall (fun ln => snd ln <> [] /\ (line_width (fst ln) (snd ln) <= W)%Qc) lns
  /\ match lns with [] => True | _ :: r => Forall (fun ln => fst ln = false) r end.
Proof.
  induction widths as [|w widths IH]; intros [|[k ln] lns] B F P; cbn [all_full] in F; try destruct F; auto.
  destruct H0 as (FT & NX & R). inversion B as [|? ? B1 B2]; subst.
  assert (NT : ~ too_wide w k ln).
  { intros (L & X). destruct ln as [|p [|q ln]]; try discriminate. assert (Y := P (k, [p]) p (or_introl eq_refl) (or_introl eq_refl) k w (or_introl eq_refl)).
    exact (Qclt_not_le _ _ X Y). }
  destruct (IH lns B2 R) as (IH1 & IH2). { intros l p I J k' w' I'. apply (P l p (or_intror I) J k' w' (or_intror I')). }
  split.
  - constructor; [|exact IH1]. cbn [fst snd]. split; [exact H|]. destruct FT as [FT|FT]; [|contradiction]. eapply Qcle_trans; eauto.
  - destruct lns as [|[k' ln'] lns]; [constructor|]. destruct ln' as [|p ln']; [contradiction|]. destruct NX as (_ & NX).
    constructor; [|exact IH2]. cbn [fst]. destruct k'; [exfalso; auto|reflexivity].
Qed.
Lemma full_length (ENV : Env QcNum) : forall widths lns, all_full widths lns -> List.length lns = List.length widths.
Proof. induction widths as [|w widths IH]; intros [|[k ln] lns] F; cbn [all_full] in F; try destruct F; auto. destruct H0 as (_ & _ & R). cbn. f_equal. auto. Qed.
Lemma combine_in {A B} (a : list A) (b : list B) x : In x (combine a b) -> In (fst x) a /\ In (snd x) b.
Proof. destruct x as [u v]. intros I. split; [eapply in_combine_l|eapply in_combine_r]; exact I. Qed.

(** The columns of the second layout are at least as wide as any of the first, which are
    wide enough for every piece of the text on its own: then it has no more lines. *)
Theorem C92_wider_columns : forall (ENV : Env QcNum) fuel fuel' ws cols cols' ae ae' lead lead' avoid avoid' j j' cs cs' (W : Qc),
  paragraph_words ws -> ws <> [] -> parts_narrower (pieces ws) ->
  (forall i, fst (cols i) <= W)%Qc -> (forall i, W <= fst (cols' i))%Qc ->
  (forall p k i, In p (pieces ws) -> line_width k [p] <= fst (cols i))%Qc ->
  ff_shape fuel ws cols ae lead avoid j = Ok cs -> ff_shape fuel' ws cols' ae' lead' avoid' j' = Ok cs' ->
  List.length (concat cs') <= List.length (concat cs).
Proof.
  intros ENV fuel fuel' ws cols cols' ae ae' lead lead' av av' j j' cs cs' W PW NE PN N1 N2 PF E E'.
  destruct (C88_lines_full ENV fuel ws cols ae lead av j cs PW NE E) as (lns & C & H & F2 & AF & _).
  assert (WD : forall (cols : nat -> Qc * Qc) (cs : list (list (@line QcNum))) w, In w (map fst (placed cols cs)) -> exists i, w = fst (cols i)).
  { clear. intros cols cs. revert cols. induction cs as [|c cs IH]; intros cols w I; cbn [placed map] in I; [destruct I|].
    rewrite map_app, map_map in I. cbn [fst] in I. apply in_app_or in I as [I|I].
    - apply in_map_iff in I as (l & <- & _). exists 0. reflexivity.
    - apply IH in I as (i & ->). exists (S i). reflexivity. }
  assert (B : Forall (fun w => (w <= W)%Qc) (map fst (placed cols cs))).
  { apply Forall_forall. intros w I. apply WD in I as (i & ->). apply N1. }
  destruct (full_fits ENV W _ _ B AF) as (FT & FL).
  { intros ln p I J k w I'. apply WD in I' as (i & ->). apply PF. rewrite <- C. apply in_concat. exists (snd ln). split; [apply in_map; exact I|exact J]. }
  rewrite <- (F2_len _ _ _ F2). rewrite <- (map_length snd lns).
  apply (C88_fewest_lines ENV fuel' ws cols' ae' lead' av' j' cs' PW NE PN E'); [exact C|].
  split. { apply Forall_map. eapply Forall_impl; [|exact FT]. cbn beta. tauto. }
  assert (FE : flagged (map snd lns) = lns).
  { destruct lns as [|[k ln] r]; [reflexivity|]. cbn [map hd fst snd] in H. subst k. cbn [map flagged]. f_equal. rewrite map_map.
    clear -FL. induction FL as [|[k l] r H _ IH]; [reflexivity|]. cbn [map fst snd] in *. subst k. f_equal. exact IH. }
  rewrite FE. apply Forall_forall. intros x I. apply combine_in in I as (I1 & I2). apply WD in I1 as (i & ->).
  rewrite Forall_forall in FT. eapply Qcle_trans; [apply (FT _ I2)|]. apply N2.
Qed.
Print Assumptions C92_wider_columns.
(** The hypotheses are met, and the number of lines does go down: columns of 20 and of 30. *)
#[local] Existing Instance ex_words.
Example C92_example :
  paragraph_words ex_ws /\ ex_ws <> [] /\ parts_narrower (pieces ex_ws)
  /\ (forall p k i, In p (pieces ex_ws) -> line_width k [p] <= fst (ex_cols 20 25 i))%Qc
  /\ rmap (fun cs => List.length (concat cs)) (ff_shape 50 ex_ws (ex_cols 20 25) false (Q2Qc 10) false false) = Ok 4
  /\ rmap (fun cs => List.length (concat cs)) (ff_shape 50 ex_ws (ex_cols 30 25) false (Q2Qc 10) true false) = Ok 3.
Proof.
  split; [apply C88_example|]. split; [apply C88_example|]. split; [apply C88_example|]. split.
  - intros p k i I. change (fst (ex_cols 20 25 i)) with (Q2Qc 20). apply Qcleb_le. revert p I k.
    assert (X : forallb (fun p => Qcleb (line_width true [p]) (Q2Qc 20) && Qcleb (line_width false [p]) (Q2Qc 20)) (pieces ex_ws) = true) by (vm_compute; reflexivity).
    rewrite forallb_forall in X. intros p I k. apply X, andb_true_iff in I as (A & B). destruct k; assumption.
  - split; vm_compute; reflexivity.
Qed.
