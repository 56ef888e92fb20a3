(** * OptimumOrphans: what the orphan repair of optimum.py achieves. *)
From Coq Require Import Lia ZArith.
From Verif Require Import Base Num Fonts State TextSpec Words WordsSpec Parse LineSpec WordProofs WordOps Firstfit FirstfitProofs KnuthPlass Optimum OptimumProofs.
Open Scope nat_scope.

Section Ext.
Context {NUM : Num}.
(** only the values of the width function matter *)
Section W.
Variables (w1 w2 : nat -> num) (E : forall i, w1 i = w2 i).
Lemma node_ratio_ext ragged n b : node_ratio w1 ragged n b = node_ratio w2 ragged n b.
Proof using E. unfold node_ratio. rewrite E. reflexivity. Qed.
Lemma visit_ext t P ragged nodes : forall pos b bn g, visit w1 t P ragged nodes pos b bn g = visit w2 t P ragged nodes pos b bn g.
Proof using E. induction nodes as [|n ns IH]; intros; cbn [visit]; [reflexivity|]. rewrite node_ratio_ext. destruct (node_ratio _ _ _ _); cbn [bind]; auto. Qed.
Lemma scan_ext t P ragged rest : forall b pos g, scan w1 t P ragged b rest pos g = scan w2 t P ragged b rest pos g.
Proof using E.
  induction rest as [|bn rest IH]; intros; cbn [scan]; [reflexivity|]. destruct (kb_no_break b); [apply IH|]. destruct g; [reflexivity|]. rewrite visit_ext. destruct (visit _ _ _ _ _ _ _ _ _); cbn [bind]; auto.
Qed.
Lemma end_options_ext P ragged nodes b pos : end_options w1 P ragged nodes b pos = end_options w2 P ragged nodes b pos.
Proof using E. induction nodes as [|n ns IH]; cbn [end_options]; [reflexivity|]. rewrite node_ratio_ext, IH. reflexivity. Qed.
Lemma optimum_fit_ext t P ragged bl : optimum_fit w1 t P ragged bl = optimum_fit w2 t P ragged bl.
Proof using E. destruct bl as [|b rest]; cbn [optimum_fit]; [reflexivity|]. rewrite scan_ext. destruct (scan _ _ _ _ _ _ _ _) as [[[g l] p]|]; cbn [bind]; [rewrite end_options_ext|]; reflexivity. Qed.
Lemma find_breaks_ext bl ragged tol P : find_breaks bl w1 ragged tol P = find_breaks bl w2 ragged tol P.
Proof using E.
  destruct bl as [|b rest]; cbn [find_breaks]; [reflexivity|]. induction (tolerances tol) as [|t ts IH]; cbn [try_fit]; [reflexivity|]. rewrite optimum_fit_ext, IH. reflexivity.
Qed.
End W.
End Ext.

Section Groups.
Context {NUM : Num}.
(** every group but the last is full *)
Lemma groups_full fuel ls c : asc c -> forall j gs, lines_per_column fuel ls c (before c j) j = Ok gs ->
  forall m g, nth_error gs m = Some g -> S m < List.length gs -> Z.of_nat (List.length g) = (c (j + m)%nat - before c (j + m)%nat)%Z.
Proof.
  intros A. induction fuel as [|fuel IH]; intros j gs H m g N L; cbn [lines_per_column] in H; [discriminate|].
  pose proof (before_lt _ j A) as BL. pose proof (before_ge _ j A) as BG. rewrite pyslice_pos in H by lia.
  destruct (firstn _ _) as [|x r] eqn:E; [apply Ok_inj in H; subst; cbn in L; lia|]. apply rmap_inv in H as (gs' & H & ->).
  destruct m as [|m]; cbn [nth_error] in N.
  - injection N as <-. rewrite Nat.add_0_r, <- E, firstn_length, skipn_length. destruct fuel as [|fuel]; cbn [lines_per_column] in H; [discriminate|].
    pose proof (before_lt _ (S j) A) as BL'. cbn [before] in BL'. rewrite pyslice_pos in H by lia.
    destruct (firstn _ (skipn (Z.to_nat (c j)) ls)) eqn:E2; [apply Ok_inj in H; subst; cbn in L; lia|].
    assert (Z.to_nat (c j) < List.length ls). { destruct (le_lt_dec (List.length ls) (Z.to_nat (c j))) as [X|X]; auto. rewrite skipn_all2, firstn_nil in E2 by auto. discriminate. }
    lia.
  - replace (j + S m) with (S j + m) by lia. eapply (IH (S j)); eauto. cbn in L. lia.
Qed.
Lemma full_sum c : forall (gs : list (list (@oline NUM))) j, (forall m g, nth_error gs m = Some g -> Z.of_nat (List.length g) = (c (j + m)%nat - before c (j + m)%nat)%Z) ->
  (Z.of_nat (List.length (concat gs)) = before c (j + List.length gs)%nat - before c j)%Z.
Proof.
  induction gs as [|g gs IH]; intros j H; cbn [concat List.length]; [rewrite Nat.add_0_r; lia|]. rewrite app_length.
  pose proof (H 0 g eq_refl) as H0. rewrite Nat.add_0_r in H0. specialize (IH (S j) (fun m g' N => eq_trans (H (S m) g' N) (f_equal (fun k => (c k - before c k)%Z) (Nat.add_succ_r j m)))).
  replace (j + S (List.length gs)) with (S j + List.length gs) by lia. cbn [before] in IH. lia.
Qed.
(** the last group is the one where the count exceeds the number of lines *)
Lemma last_group ls q gs l : asc (q_counts q) -> per_column ls q = Ok (gs ++ [l]) ->
  let m := List.length gs in
  Z.of_nat (List.length ls) = (before (q_counts q) m + Z.of_nat (List.length l))%Z /\ l <> []
  /\ (Z.of_nat (List.length ls) <= q_counts q m)%Z.
Proof.
  intros A H m. destruct (per_column_spec ls q A) as (gs' & E1 & E2 & _ & E3). rewrite H in E1. apply Ok_inj in E1. subst gs'.
  destruct (E3 m l) as (N & LE). { unfold m. rewrite nth_error_app2, Nat.sub_diag by lia. reflexivity. }
  assert (S1 : Z.of_nat (List.length (concat gs)) = (before (q_counts q) (0 + m)%nat - 0)%Z).
  { apply (full_sum (q_counts q) gs 0). intros i g Ni. unfold per_column in H. apply (groups_full _ ls _ A 0 _ H i g).
    - rewrite nth_error_app1; [exact Ni|]. apply nth_error_Some. congruence.
    - rewrite app_length. cbn. assert (i < List.length gs) by (apply nth_error_Some; congruence). lia. }
  rewrite <- E2, concat_app, app_length. cbn [concat List.length Nat.add] in *. rewrite app_nil_r. repeat split; auto; lia.
Qed.
Lemma asc_unique c n i j : asc c -> (before c i < n <= c i)%Z -> (before c j < n <= c j)%Z -> i = j.
Proof.
  intros A H1 H2. destruct (lt_eq_lt_dec i j) as [[L|L]|L]; auto; exfalso.
  - destruct j as [|j]; [lia|]. cbn [before] in H2. pose proof (asc_le c i j A ltac:(lia)). lia.
  - destruct i as [|i]; [lia|]. cbn [before] in H1. pose proof (asc_le c j i A ltac:(lia)). lia.
Qed.
Lemma groups_nonempty ls q : asc (q_counts q) -> ls <> [] -> exists gs l, per_column ls q = Ok (gs ++ [l]).
Proof.
  intros A N. destruct (per_column_spec ls q A) as (gs & E1 & E2 & _). destruct gs as [|g gs] using rev_ind; [cbn in E2; congruence|]. eauto.
Qed.
End Groups.

Section Shape.
Context {NUM : Num} {ENV : Env NUM}.
Variables (frags : list (@fragment NUM)) (boxes : list kbox) (ragged : bool) (tolerance : num) (P : params).
Notation lay := (lay frags boxes ragged tolerance P).
Notation repair := (repair frags boxes ragged tolerance P).
Notation laid := (laid frags boxes ragged tolerance P).
Lemma lay_ext q q' : (forall i, line_length q i = line_length q' i) -> lay q = lay q'.
Proof. intros E. unfold Optimum.lay. rewrite (find_breaks_ext _ _ E). reflexivity. Qed.
Lemma rev_split {A} (l r : list A) x y : rev l = x :: y :: r -> l = rev r ++ [y] ++ [x].
Proof. intros H. rewrite <- (rev_involutive l), H. cbn. rewrite <- app_assoc. reflexivity. Qed.
Lemma shorten_asc q i : asc (q_counts q) -> (1 < q_counts q i - before (q_counts q) i)%Z -> asc (q_counts (shorten_column q i)).
Proof.
  intros (A0 & A1) H. cbn [shorten_column q_counts]. split.
  - destruct i as [|i]; cbn [Nat.leb]; [cbn in H; lia|exact A0].
  - intros j. specialize (A1 j). destruct (i <=? j) eqn:E1, (i <=? S j) eqn:E2; try lia.
    assert (i = S j) by lia. subst i. cbn in H. lia.
Qed.
(** with columns of one width the first repair succeeds *)
Lemma repair_uniform fuel groups q out w : asc (q_counts q) -> (forall j, fst (q_cols q j) = w) -> laid q groups ->
  repair fuel groups q = Ok out ->
  forall pre p l, out = pre ++ [p] ++ [l] -> 2 < List.length p -> List.length l = 1 ->
  (q_counts q (S (List.length pre)) - before (q_counts q) (S (List.length pre)) <= 1)%Z.
Proof.
  intros A W (ls & LY & PC) H pre p l EO LP LL. destruct fuel as [|fuel]; cbn [Optimum.repair] in H; [discriminate|].
  destruct (rev groups) as [|last [|prev r]] eqn:R; [discriminate| |].
  { apply Ok_inj in H. subst out. apply (f_equal (@List.length _)) in R. rewrite EO, rev_length, !app_length in R. cbn in R. lia. }
  apply rev_split in R. destruct (_ && _ && _) eqn:C in H.
  - exfalso. apply andb_true_iff in C as (C & C3). apply andb_true_iff in C as (C1 & C2).
    rewrite app_assoc in R. set (m := List.length groups) in *. assert (EM : m = S (List.length (rev r ++ [prev]))) by (unfold m; rewrite R, app_length; cbn; lia).
    pose proof PC as PC'. rewrite R in PC'. apply last_group in PC' as (T1 & _ & T2); [|exact A]. replace (List.length (rev r ++ [prev])) with (m - 1) in T1, T2 by lia.
    assert (EM2 : m = S (S (List.length (rev r)))) by (rewrite EM, app_length; cbn; lia).
    assert (B1 : before (q_counts q) (m - 1) = q_counts q (m - 2)) by (rewrite EM2; cbn [before Nat.sub]; rewrite Nat.sub_0_r; reflexivity).
    apply Nat.eqb_eq in C1. rewrite B1, C1 in T1.
    assert (P2 : (2 < q_counts q (m - 2) - before (q_counts q) (m - 2))%Z).
    { destruct (per_column_spec ls q A) as (gs & E1 & _ & _ & E3). rewrite PC in E1. apply Ok_inj in E1. subst gs.
      destruct (E3 (m - 2) prev) as (_ & X). { rewrite R, <- app_assoc, nth_error_app2 by lia. replace (m - 2 - List.length (rev r)) with 0 by lia. reflexivity. }
      apply Nat.ltb_lt in C3. lia. }
    set (q' := shorten_column q (m - 2)) in *. assert (A' : asc (q_counts q')) by (apply shorten_asc; [exact A|lia]).
    assert (LE : lay q' = Ok ls). { rewrite <- LY. apply lay_ext. intros i. unfold line_length. unfold q'. cbn [shorten_column q_cols]. rewrite !W. reflexivity. }
    rewrite LE in H. cbn [bind] in H.
    destruct (groups_nonempty ls q' A') as (gs' & l' & E'). { intros ->. cbn in T1. pose proof (asc_ge (q_counts q) (m - 2) A). lia. }
    rewrite E' in H. cbn [bind] in H. apply last_group in E' as (U1 & U2 & U3); [|exact A'].
    assert (CM1 : q_counts q' (m - 1) = (q_counts q (m - 1) - 1)%Z). { unfold q'. cbn [shorten_column q_counts]. replace (m - 2 <=? m - 1) with true by (symmetry; apply Nat.leb_le; lia). reflexivity. }
    assert (CM2 : q_counts q' (m - 2) = (q_counts q (m - 2) - 1)%Z). { unfold q'. cbn [shorten_column q_counts]. rewrite Nat.leb_refl. reflexivity. }
    assert (B2 : before (q_counts q') (m - 1) = q_counts q' (m - 2)) by (rewrite EM2; cbn [before Nat.sub]; rewrite Nat.sub_0_r; reflexivity).
    assert (EL : List.length gs' = m - 1).
    { apply (asc_unique (q_counts q') (Z.of_nat (List.length ls))); [exact A'| |rewrite B2; lia]. split; [|exact U3]. rewrite U1. destruct l'; [congruence|]. cbn [List.length]. lia. }
    rewrite EL, B2, CM2 in U1. assert (L2 : List.length l' = 2) by lia.
    rewrite rev_app_distr in H. cbn [rev app] in H. rewrite L2, andb_false_r in H.
    destruct fuel as [|fuel]; cbn [Optimum.repair] in H; [discriminate|]. rewrite rev_app_distr in H. cbn [rev app] in H. rewrite L2 in H. cbn [Nat.eqb andb] in H.
    assert (EO2 : out = gs' ++ [l']). { destruct (rev gs'); apply Ok_inj in H; congruence. }
    rewrite EO2, app_assoc in EO. apply app_inj_tail in EO as (_ & ->). lia.
  - apply Ok_inj in H. subst out. rewrite EO in R. rewrite !app_assoc in R. apply app_inj_tail in R as (R & ->). apply app_inj_tail in R as (R & ->).
    rewrite EO in C. rewrite !app_length in C. cbn [List.length] in C. replace (List.length pre + (1 + 1) - 1) with (S (List.length pre)) in C by lia. replace (List.length pre + (1 + 1) - 2) with (List.length pre) in C by lia.
    rewrite LL in C. cbn [before]. replace (2 <? List.length prev) with true in C by (symmetry; apply Nat.ltb_lt; lia). cbn [Nat.eqb andb] in C. rewrite andb_true_r in C. lia.
Qed.
(** a first column with room for two lines keeps it *)
Lemma repair_first fuel : forall groups q out, asc (q_counts q) -> laid q groups ->
  (2 <= q_counts q 0)%Z \/ List.length groups <= 1 -> repair fuel groups q = Ok out ->
  exists q', asc (q_counts q') /\ laid q' out /\ ((2 <= q_counts q' 0)%Z \/ List.length out <= 1).
Proof.
  induction fuel as [|fuel IH]; intros groups q out A L D H; cbn [Optimum.repair] in H; [discriminate|].
  destruct (rev groups) as [|last [|prev r]] eqn:R; [discriminate|apply Ok_inj in H; subst; eauto|].
  destruct (_ && _ && _) eqn:C in H; [|apply Ok_inj in H; subst; eauto].
  apply andb_true_iff in C as (C & C3). apply andb_true_iff in C as (C1 & C2). apply Nat.ltb_lt in C3.
  destruct (rev_two _ _ _ _ R) as (N1 & _ & LE). destruct L as (ls & LY & PC).
  assert (B1 : (Z.of_nat (List.length prev) <= q_counts q (List.length groups - 2) - before (q_counts q) (List.length groups - 2))%Z).
  { destruct (per_column_spec ls q A) as (gs & E1 & _ & _ & E3). rewrite PC in E1. apply Ok_inj in E1. subst gs. apply (E3 _ _ N1). }
  set (q' := shorten_column q (List.length groups - 2)) in *. assert (A' : asc (q_counts q')) by (apply shorten_asc; [exact A|lia]).
  assert (D' : (2 <= q_counts q' 0)%Z).
  { destruct D as [D|D]; [|lia]. unfold q'. cbn [shorten_column q_counts]. destruct (List.length groups - 2) as [|i]; cbn [Nat.leb]; [cbn [before] in B1; lia|exact D]. }
  apply bind_ok in H as (ls' & E1 & H). apply bind_ok in H as (gs & E2 & H).
  assert (L' : laid q' gs) by (exists ls'; auto).
  destruct (rev gs) as [|l' rs]; [eapply IH; eauto|].
  destruct (_ && _) in H; [apply Ok_inj in H; subst; exists q; split; [exact A|]; split; [exists ls; auto|exact D]|eapply IH; eauto].
Qed.
End Shape.

Section Whole.
Context {NUM : Num} {ENV : Env NUM}.
Definition exact (cols : nat -> num * num) lead ae d (q : @queue NUM) : Prop :=
  asc (q_counts q) /\ (forall j, q_cols q j = cols (d + j)) /\ (forall j, q_counts q j - before (q_counts q) j = room cols lead ae (d + j))%Z.
Lemma opt_shape_cases fuel ws cols (ae : bool) (lead : num) (ragged : bool) tolerance P out :
  (forall i, (0 <= nfloordiv (snd (cols i)) lead)%Z) ->
  opt_shape fuel ws cols ae lead true ragged tolerance P = Ok out ->
  (exists d, d <= 1 /\ out = repeat [] d ++ [[oline_empty]])
  \/ exists frags boxes d q gs gs', out = repeat [] d ++ gs' /\ d <= 2 /\ exact cols lead ae d q
     /\ laid frags boxes ragged tolerance P q gs /\ repair frags boxes ragged tolerance P fuel gs q = Ok gs'
     /\ (d = 0 -> ae = true -> (2 <= q_counts q 0)%Z \/ List.length gs <= 1)
     /\ (d = 2 -> room cols lead ae 1 = 1%Z).
Proof.
  intros ROOMY H. unfold opt_shape in H. apply bind_ok in H as ((frags & boxes) & E & H). destruct (neqb lead n0); [discriminate|].
  set (q0 := queue_new cols lead ae) in *.
  assert (X : exists d q, d <= 1 /\ (if (q_counts q0 0 =? 0)%Z then ([[]], queue_new (fun i => cols (S i)) lead false) else ([], q0))
     = (repeat (@nil oline) d, q) /\ exact cols lead ae d q).
  { destruct (q_counts q0 0 =? 0)%Z eqn:Z.
    - exists 1, (queue_new (fun i => cols (S i)) lead false). split; auto. split; auto. split; [apply (queue_next_ok cols lead ae ROOMY)|]. split; [reflexivity|].
      intros j. destruct j; cbn; unfold room; rewrite ?andb_false_r; cbn; lia.
    - exists 0, q0. split; auto. split; auto. split; [|split; [reflexivity|]].
      + apply (queue_new_ok cols lead ae ROOMY). pose proof (room_nonneg cols lead ae ROOMY 0). pose proof (count_incr cols lead ae ROOMY 0). cbn [before] in *.
        cbn [q0 queue_new q_counts] in Z. lia.
      + intros j. apply (count_incr cols lead ae ROOMY). }
  destruct X as (d & q & D & EQ & (A & B & C)). rewrite EQ in H. clear EQ q0.
  destruct boxes as [|b0 boxes]; [left; exists d; split; [exact D|]; apply Ok_inj in H; congruence|]. right. set (bx := b0 :: boxes) in *.
  apply bind_ok in H as (ls & E1 & H). apply bind_ok in H as (((pre & q1) & ls1) & E2 & H). cbn [andb] in E2.
  destruct (ae && _ && _ && _) eqn:CD in E2.
  - apply bind_ok in E2 as (ls' & E3 & E2). inversion E2; subst pre q1 ls1; clear E2.
    apply bind_ok in H as (gs & E4 & H). apply bind_ok in H as (gs' & E5 & H). apply Ok_inj in H. subst out.
    exists frags, bx, (S d), (remove_first_column q), gs, gs'.
    split; [f_equal; destruct d as [|[|]]; [reflexivity|reflexivity|lia]|]. split; [lia|]. split; [split; [|split]|].
    + destruct A as (A0 & A1). split; cbn [remove_first_column q_counts]; [specialize (A1 0); lia|]. intros j. specialize (A1 (S j)). lia.
    + intros j. cbn [remove_first_column q_cols]. rewrite B. f_equal. lia.
    + intros j. specialize (C (S j)). replace (d + S j) with (S d + j) in C by lia. rewrite <- C. cbn [remove_first_column q_counts]. destruct j; cbn [before]; lia.
    + split; [exists ls'; auto|]. split; [exact E5|]. split; [discriminate|]. intros D2. assert (d = 1) by lia. subst d. specialize (C 0). cbn [before Nat.add] in C. lia.
  - apply Ok_inj in E2. injection E2 as <- <- <-.
    apply bind_ok in H as (gs & E4 & H). apply bind_ok in H as (gs' & E5 & H). apply Ok_inj in H. subst out.
    exists frags, bx, d, q, gs, gs'. split; [reflexivity|]. split; [lia|]. split; [split; [exact A|split; [exact B|exact C]]|].
    split; [exists ls; auto|]. split; [exact E5|]. split; [|intros ->; lia]. intros D0 ->. cbn [andb] in CD.
    destruct (q_counts q 0 =? 1)%Z eqn:C0; [right|left; destruct A; lia]. cbn [andb] in CD.
    assert (LL : List.length ls <= 1). { destruct A as (A0 & A1). specialize (A1 0). lia. }
    destruct (per_column_spec ls q A) as (gs0 & F1 & F2 & _ & F3). rewrite E4 in F1. apply Ok_inj in F1. subst gs0. rewrite <- F2 in LL.
    pose proof (groups_len gs (fun m g N => proj1 (F3 m g N))). lia.
Qed.
Lemma opt_no_orphan_end fuel ws cols (ae : bool) (lead : num) (ragged : bool) tolerance P (w : num) pre p l :
  (forall i, (0 <= nfloordiv (snd (cols i)) lead)%Z) -> (forall i, fst (cols i) = w) ->
  opt_shape fuel ws cols ae lead true ragged tolerance P = Ok (pre ++ [p; l]) ->
  2 < List.length p -> (2 <= nfloordiv (snd (cols (S (List.length pre)))) lead)%Z -> List.length l <> 1.
Proof.
  intros RM HW H LP HL LL. apply opt_shape_cases in H as [(d & _ & EO)|(frags & boxes & d & q & gs & gs' & EO & _ & (A & B & C) & LD & RP & _)]; [| |exact RM].
  - change [p; l] with ([p] ++ [l]) in EO. rewrite app_assoc in EO. apply app_inj_tail in EO as (EO & _).
    assert (X : In p (repeat [] d)) by (rewrite <- EO; apply in_or_app; right; left; reflexivity). apply repeat_spec in X. subst p. cbn in LP. lia.
  - assert (SP : exists pre', gs' = pre' ++ [p] ++ [l] /\ S (List.length pre) = d + S (List.length pre')).
    { assert (EL : List.length pre + 2 = d + List.length gs'). { apply (f_equal (@List.length _)) in EO. rewrite !app_length, repeat_length in EO. exact EO. }
      assert (G2 : 2 <= List.length gs').
      { destruct gs' as [|g1 [|g2 gs']]; [| |cbn; lia]; exfalso.
        - rewrite app_nil_r in EO. assert (X : In p (repeat [] d)) by (rewrite <- EO; apply in_or_app; right; left; reflexivity). apply repeat_spec in X. subst p. cbn in LP. lia.
        - change [p; l] with ([p] ++ [l]) in EO. rewrite app_assoc in EO. apply app_inj_tail in EO as (EO & _).
          assert (X : In p (repeat [] d)) by (rewrite <- EO; apply in_or_app; right; left; reflexivity). apply repeat_spec in X. subst p. cbn in LP. lia. }
      destruct gs' as [|l' gs1 _] using rev_ind; [cbn in G2; lia|]. rewrite app_length in *. cbn [List.length] in *.
      destruct gs1 as [|p' pre' _] using rev_ind; [cbn in G2; lia|]. rewrite app_length in *. cbn [List.length] in *.
      change [p; l] with ([p] ++ [l]) in EO. rewrite !app_assoc in EO. apply app_inj_tail in EO as (EO & <-). apply app_inj_tail in EO as (EO & <-).
      exists pre'. rewrite app_assoc. split; [reflexivity|lia]. }
    destruct SP as (pre' & EG & EI).
    pose proof (repair_uniform frags boxes ragged tolerance P fuel gs q gs' w A (fun j => eq_trans (f_equal fst (B j)) (HW _)) LD RP pre' p l EG LP LL) as X.
    rewrite C, <- EI in X. unfold room, max_line_count in X. destruct (_ =? 0)%Z eqn:Z in X; lia.
Qed.
Lemma opt_no_orphan_start fuel ws cols (lead : num) (ragged : bool) tolerance P first second rest :
  (forall i, (0 <= nfloordiv (snd (cols i)) lead)%Z) ->
  opt_shape fuel ws cols true lead true ragged tolerance P = Ok (first :: second :: rest) -> List.length first <> 1.
Proof.
  intros RM H. apply opt_shape_cases in H as [(d & D & EO)|(frags & boxes & d & q & gs & gs' & EO & _ & (A & B & C) & LD & RP & F & _)]; [| |exact RM].
  - destruct d as [|d]; [discriminate|]. cbn in EO. injection EO as -> _. discriminate.
  - destruct d as [|d]; [|cbn in EO; injection EO as -> _; discriminate]. cbn in EO. subst gs'.
    destruct (repair_first frags boxes ragged tolerance P fuel gs q _ A LD (F eq_refl eq_refl) RP) as (q' & A' & (ls & _ & PC) & [D|D]); [|cbn in D; lia].
    intros L1. unfold per_column in PC. pose proof (groups_full _ ls _ A' 0 _ PC 0 first eq_refl ltac:(cbn; lia)) as X. cbn [Nat.add before] in X. lia.
Qed.
(** columns after the first get lines, if fresh columns have room for two *)
Lemma opt_columns_used fuel ws cols (ae : bool) (lead : num) (ragged : bool) tolerance P out j g :
  (forall i, (0 <= nfloordiv (snd (cols i)) lead)%Z) -> (forall i, 0 < i -> (2 <= nfloordiv (snd (cols i)) lead)%Z) ->
  opt_shape fuel ws cols ae lead true ragged tolerance P = Ok out -> nth_error out (S j) = Some g -> g <> [].
Proof.
  intros RM R2 H N. apply opt_shape_cases in H as [(d & D & ->)|(frags & boxes & d & q & gs & gs' & -> & D & (A & B & C) & LD & RP & F & F2)]; [| |exact RM].
  - destruct d as [|[|d]]; cbn [repeat app nth_error] in N; [destruct j; discriminate| |lia]. destruct j as [|[|]]; cbn in N; [|discriminate|discriminate]. injection N as <-. discriminate.
  - assert (D1 : d <= 1).
    { destruct (Nat.eq_dec d 2) as [->|]; [|lia]. specialize (F2 eq_refl). unfold room, max_line_count in F2. specialize (R2 1 ltac:(lia)). destruct (_ =? 0)%Z eqn:Z in F2; lia. }
    destruct (repair_spec frags boxes ragged tolerance P cols lead ae d fuel gs q gs') as (q' & Q' & L'); [split; [exact A|split; [exact B|]]; intros i; rewrite C; lia|exact LD|exact RP|].
    destruct d as [|[|d]]; [| |lia]; [apply (laid_groups _ _ _ _ _ _ _ _ _ _ _ (S j) g Q' L' N)|apply (laid_groups _ _ _ _ _ _ _ _ _ _ _ j g Q' L' N)].
Qed.
End Whole.
