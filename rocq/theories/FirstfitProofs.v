(** * FirstfitProofs: first-fit lines, for any arithmetic. *)
From Coq Require Import Wf_nat.
From Verif Require Import Base Num Fonts State TextSpec StateProofs Words WordsSpec WordProofs WordOps LineSpec Firstfit.
Open Scope nat_scope.

Section Structure.
Context {NUM : Num} {ENV : Env NUM}.

(** ** one line *)
(** [l] shows a first part of [ws], [rest] is what remains *)
Definition splits_line (ws l rest : list wordlike) : Prop :=
  (exists piece, is_line_of piece (measured_all l) /\ piece ++ measured_all rest = measured_all ws)
  /\ (forall s, end_all rest (end_all l s) = end_all ws s)
  /\ (forall s, coh_all ws s -> coh_all l s /\ coh_all rest (end_all l s)).
Definition wsize (w : wordlike) : nat := S (List.length (wl_boxes w)).
Definition size (ws : list wordlike) : nat := list_sum (map wsize ws).
Lemma size_app a b : size (a ++ b) = size a + size b.
Proof. unfold size. rewrite map_app, list_sum_app. reflexivity. Qed.
Lemma size_cons w b : size (w :: b) = S (List.length (wl_boxes w) + size b).
Proof. reflexivity. Qed.
Definition opt_list {A} (o : option (list A)) : list A := match o with Some l => l | None => [] end.
Lemma measured_all_app' a b : measured_all (a ++ b) = measured_all a ++ measured_all b.
Proof. unfold measured_all. apply flat_map_app. Qed.
Lemma measured_all_cons w b : measured_all (w :: b) = measured w ++ measured_all b.
Proof. reflexivity. Qed.

Lemma fit_words_spec ws : forall space content c sp stop,
  fit_words ws space content = (c, sp, stop) ->
  exists taken, c = content ++ taken
    /\ ws = taken ++ match stop with Some (w, r) => w :: r | None => [] end.
Proof.
  induction ws as [|w r IH]; intros space content c sp stop; cbn [fit_words].
  - injection 1 as <- <- <-. exists []. rewrite app_nil_r. auto.
  - destruct (nltb _ _).
    + injection 1 as <- <- <-. exists []. rewrite app_nil_r. auto.
    + intros E. apply IH in E as (t & -> & ->). exists (w :: t). rewrite <- app_assoc. auto.
Qed.
Lemma splits_exact a b : splits_line (a ++ b) a b.
Proof.
  split; [|split].
  - exists (measured_all a). split; [left; reflexivity|]. symmetry. apply measured_all_app'.
  - intros s. symmetry. apply end_all_app.
  - intros s H. apply coh_all_app in H. exact H.
Qed.
Lemma splits_alike a w w' r : alike w w' -> splits_line (a ++ w :: r) a (w' :: r).
Proof.
  intros (A1 & A2 & A3 & _). split; [|split].
  - exists (measured_all a). split; [left; reflexivity|]. rewrite measured_all_app', !measured_all_cons, A1. reflexivity.
  - intros s. rewrite end_all_app, !end_all_cons, A2. reflexivity.
  - intros s H. apply coh_all_app in H as [H1 [H2 H3]]. split; auto. cbn. rewrite A2. auto.
Qed.
Lemma splits_hyphen a w x y r : hyphenated w x y -> splits_line (a ++ w :: r) (a ++ [x]) (y :: r).
Proof.
  intros ((p & H1 & H2) & H3 & H4 & _). split; [|split].
  - exists (measured_all a ++ p). split.
    + right; left. exists (wl_state x). rewrite measured_all_app', measured_all_cons, H1.
      unfold measured_all at 2. cbn. rewrite app_nil_r, app_assoc. reflexivity.
    + rewrite measured_all_app', !measured_all_cons, H2, <- !app_assoc. reflexivity.
  - intros s. rewrite !end_all_app, !end_all_cons, H3. reflexivity.
  - intros s H. apply coh_all_app in H as [C1 [C2 C3]]. apply H4 in C2 as [C4 C5].
    split; [apply coh_all_app; cbn; auto|]. rewrite end_all_app, end_all_cons. cbn. rewrite H3. auto.
Qed.
Lemma splits_pruned a x w w' r : alike w w' -> splits_line ((a ++ [x]) ++ w :: r) (a ++ [wl_pruned x]) (w' :: r).
Proof.
  intros A. destruct (wl_pruned_measured x) as (P1 & P2 & P3 & P4 & _). destruct (wl_tail x) as [t|].
  - specialize (P2 t eq_refl). destruct P2 as [st P2]. clear P1. destruct A as (A1 & A2 & A3 & _).
    split; [|split].
    + exists (measured_all (a ++ [x])). split.
      * right; right. exists st. rewrite !measured_all_app', !measured_all_cons. cbn. rewrite !app_nil_r, P2.
        apply app_assoc.
      * rewrite (measured_all_app' (a ++ [x])), !measured_all_cons, A1. reflexivity.
    + intros s. rewrite !end_all_app, !end_all_cons, A2. reflexivity.
    + intros s H. apply coh_all_app in H as [C1 [C2 C3]]. apply coh_all_app in C1 as [C4 [C5 _]].
      rewrite end_all_app, end_all_cons in C2. cbn in C2. rewrite !end_all_app, !end_all_cons. cbn.
      split; [apply coh_all_app; cbn; auto|]. rewrite P3, A2. auto.
  - rewrite P1 by reflexivity. apply splits_alike, A.
Qed.
Lemma take_line_splits ws width q l : take_line ws width = Ok (q, l) ->
  splits_line ws (l_words l) (opt_list q)
  /\ (forall r, q = Some r -> size r < size ws)
  /\ (q = None -> measured_all (l_words l) = measured_all ws)
  /\ (ws <> [] -> l_words l <> []).
Proof.
  unfold take_line. destruct (fit_words ws width []) as [[c sp] stop] eqn:F.
  apply fit_words_spec in F as (t & -> & EW). cbn [app]. destruct stop as [[w r]|].
  2:{ intros E. injection E as <- <-. cbn [l_words opt_list]. rewrite EW.
      split; [apply splits_exact|]. split; [discriminate|]. rewrite app_nil_r. auto. }
  intros E. apply bind_ok in E as ([last dangling] & HY & E). apply wl_hyphenate_cases in HY.
  destruct last as [lw|].
  - injection E as <- <-. cbn [l_words opt_list]. rewrite EW. split; [apply splits_hyphen, HY|].
    split; [|split; [discriminate|destruct t; discriminate]].
    intros r' [= <-]. rewrite size_app. destruct HY as (_ & _ & _ & HL & _).
    rewrite !size_cons. lia.
  - assert (SZ : size (dangling :: r) = size (w :: r)).
    { destruct HY as (_ & _ & _ & HL). rewrite !size_cons, HL. reflexivity. }
    destruct (rev t) as [|x rt] eqn:RT.
    + assert (t = []) as -> by (destruct t; auto; apply (f_equal (@List.length _)) in RT; rewrite rev_length in RT; discriminate).
      cbn in EW. destruct (wl_minimal dangling) as [x leftover] eqn:M. apply wl_minimal_cases in M.
      destruct leftover as [y|].
      * injection E as <- <-. cbn [l_words opt_list]. subst ws.
        assert (SP := splits_hyphen [] dangling x y r M). cbn in SP.
        destruct HY as (A1 & A2 & A3 & A4). split; [|split; [|split; discriminate]].
        -- destruct SP as ((p & S1 & S2) & S3 & S4). split; [|split].
           ++ exists p. split; auto. rewrite S2, !measured_all_cons, A1. reflexivity.
           ++ intros s. rewrite S3, !end_all_cons, A2. reflexivity.
           ++ intros s [H1 H2]. apply S4. cbn. rewrite A2. auto.
        -- intros r' [= <-]. rewrite <- SZ. destruct M as (_ & _ & _ & HL & _). 
           rewrite !size_cons. lia.
      * assert (AL : alike w x) by (eapply alike_trans; eauto). destruct AL as (A1 & A2 & A3 & A4).
        assert (SP : splits_line ws [x] r).
        { subst ws. split; [|split].
          - exists (measured w). split; [left; cbn; rewrite app_nil_r; auto|reflexivity].
          - intros s. rewrite !end_all_cons, A2. reflexivity.
          - intros s [H1 H2]. cbn. rewrite A2. auto. }
        destruct r as [|r0 r].
        -- injection E as <- <-. cbn [l_words opt_list]. split; [exact SP|]. split; [discriminate|]. split; [|discriminate].
           intros _. subst ws. rewrite !measured_all_cons, A1. reflexivity.
        -- injection E as <- <-. cbn [l_words opt_list]. split; [exact SP|]. split; [|split; discriminate].
           intros r' [= <-]. subst ws. rewrite !size_cons. lia.
    + assert (ET : t = rev rt ++ [x]) by (rewrite <- (rev_involutive t), RT; reflexivity).
      assert (SZ' : size (dangling :: r) < size ws).
      { rewrite EW, ET, !size_app, SZ, (size_cons x). lia. }
      destruct (ntruthy (wl_prunable x)); injection E as <- <-; cbn [l_words opt_list].
      * split; [|split; [intros r' [= <-]; exact SZ'|split; [discriminate|]]].
        -- rewrite EW, ET, removelast_last. apply splits_pruned, HY.
        -- intros _ C. apply app_eq_nil in C as [_ C]. discriminate.
      * split; [|split; [intros r' [= <-]; exact SZ'|split; [discriminate|]]].
        -- rewrite EW. apply splits_alike, HY.
        -- intros _ ->. discriminate.
Qed.

Lemma take_line_rest ws width r l : take_line ws width = Ok (Some r, l) -> r <> [].
Proof.
  unfold take_line. destruct (fit_words ws width []) as [[c sp] [[w r0]|]]; [|discriminate].
  intros E. apply bind_ok in E as ([last dangling] & _ & E).
  destruct last; [injection E as <- _; discriminate|].
  destruct (rev c); [|destruct (ntruthy _); injection E as <- _; discriminate].
  destruct (wl_minimal dangling) as [x [y|]]; [injection E as <- _; discriminate|].
  destruct r0; [discriminate|]. injection E as <- _. discriminate.
Qed.
(** ** many lines *)
Inductive steps : option (list wordlike) -> list (num * line) -> option (list wordlike) -> Prop :=
| st_nil q : steps q [] q
| st_cons ws w q l r z : take_line ws w = Ok (q, l) -> steps q r z -> steps (Some ws) ((w, l) :: r) z.
Lemma steps_app a b q1 q2 q3 : steps q1 a q2 -> steps q2 b q3 -> steps q1 (a ++ b) q3.
Proof. induction 1; auto. intros. econstructor; eauto. Qed.
Definition steps_words (ls : list (num * line)) : list wordlike := flat_map (fun p => l_words (snd p)) ls.
Lemma steps_none ls z : steps None ls z -> ls = [] /\ z = None.
Proof. inversion 1; auto. Qed.
Lemma steps_spec q ls z : steps q ls z ->
  (exists pieces, Forall2 is_line_of pieces (map (fun p => measured_all (l_words (snd p))) ls)
     /\ concat pieces ++ measured_all (opt_list z) = measured_all (opt_list q))
  /\ (forall s, end_all (opt_list z) (end_all (steps_words ls) s) = end_all (opt_list q) s)
  /\ (forall s, coh_all (opt_list q) s ->
        coh_all (steps_words ls) s /\ coh_all (opt_list z) (end_all (steps_words ls) s)).
Proof.
  induction 1 as [q|ws w q l r z T _ ((ps & I1 & I2) & I3 & I4)].
  - split; [exists []; split; [constructor|reflexivity]|]. split; [reflexivity|]. cbn. auto.
  - apply take_line_splits in T as (((p & S1 & S2) & S3 & S4) & _). cbn [opt_list].
    unfold steps_words in *. cbn [flat_map map snd]. split; [|split].
    + exists (p :: ps). split; [constructor; auto|]. cbn. rewrite <- app_assoc, I2. exact S2.
    + intros s. rewrite end_all_app, I3. apply S3.
    + intros s H. apply S4 in H as [H1 H2]. apply I4 in H2 as [H2 H3].
      rewrite end_all_app. split; [apply coh_all_app; auto|exact H3].
Qed.
Lemma placed_lines {A} cols (cs : list (list A)) : map snd (placed cols cs) = concat cs.
Proof.
  revert cols. induction cs as [|ls cs IH]; intros cols; cbn; auto.
  rewrite map_app, IH, map_map. cbn. rewrite map_id. reflexivity.
Qed.
(** no column has more lines than allowed *)
Fixpoint counts_ok (lead : num) (ae : bool) (cols : nat -> num * num) (cs : list (list line)) : Prop :=
  match cs with
  | [] => True
  | ls :: r => (Z.of_nat (List.length ls) <= Z.max 0 (max_line_count (snd (cols O)) lead ae))%Z
               /\ counts_ok lead false (fun i => cols (S i)) r
  end.

Lemma take_lines_spec n : forall q prev width acc b, take_lines n q prev width acc = Ok b ->
  exists new, b_lines b = acc ++ new
    /\ steps q (map (pair width) new) (b_rest b)
    /\ List.length new <= n
    /\ (b_rest b <> None -> List.length new = n)
    /\ (new = [] -> b_undo b = prev /\ b_rest b = q)
    /\ (new <> [] -> exists u l, b_undo b = Some u /\ new = removelast new ++ [l]
          /\ steps q (map (pair width) (removelast new)) (Some u)
          /\ take_line u width = Ok (b_rest b, l)).
Proof.
  induction n as [|n IH]; intros q prev width acc b; cbn [take_lines].
  - intros E. apply Ok_inj in E. subst b. exists []. cbn. rewrite app_nil_r.
    repeat split; auto; try constructor; congruence.
  - destruct q as [ws|].
    + intros E. apply bind_ok in E as ([q l] & T & E). apply IH in E as (new & E1 & E2 & E3 & E4 & E5 & E6).
      exists (l :: new). cbn [fst snd] in *. split; [rewrite E1, <- app_assoc; reflexivity|].
      split; [cbn; econstructor; eauto|]. split; [cbn; lia|]. split; [intros H; cbn; rewrite E4; auto|].
      split; [discriminate|]. intros _. destruct new as [|l1 new].
      * destruct (E5 eq_refl) as [E7 E8]. exists ws, l. rewrite E7, E8.
        split; [auto|]. split; [auto|]. split; [constructor|exact T].
      * destruct E6 as (u & l2 & E7 & E8 & E9 & E10); [discriminate|]. exists u, l2.
        split; [exact E7|]. change (removelast (l :: l1 :: new)) with (l :: removelast (l1 :: new)).
        split; [cbn [app]; f_equal; exact E8|]. split; [|exact E10]. cbn [map]. econstructor; eauto.
    + intros E. apply Ok_inj in E. subst b. exists []. cbn. rewrite app_nil_r.
      repeat split; auto; try constructor; try congruence; try lia.
Qed.
Lemma take_lines_None n prev width acc : take_lines n None prev width acc = Ok (mkFilled None acc prev).
Proof. destruct n; reflexivity. Qed.
Lemma take_box_spec q col ae lead b : take_box q col ae lead = Ok b ->
  neqb lead n0 = false
  /\ steps q (map (pair (fst col)) (b_lines b)) (b_rest b)
  /\ List.length (b_lines b) <= Z.to_nat (max_line_count (snd col) lead ae)
  /\ (b_rest b <> None -> List.length (b_lines b) = Z.to_nat (max_line_count (snd col) lead ae))
  /\ (b_lines b = [] -> b_undo b = q /\ b_rest b = q)
  /\ (b_lines b <> [] -> exists u l, b_undo b = Some u /\ b_lines b = removelast (b_lines b) ++ [l]
          /\ steps q (map (pair (fst col)) (removelast (b_lines b))) (Some u)
          /\ take_line u (fst col) = Ok (b_rest b, l)).
Proof.
  unfold take_box. destruct (neqb lead n0) eqn:L; [discriminate|]. intros E.
  apply take_lines_spec in E as (new & E1 & E). cbn in E1. subst new. split; [reflexivity|exact E].
Qed.
Lemma steps_size q ls z : steps q ls z -> size (opt_list z) <= size (opt_list q)
  /\ (ls <> [] -> forall r, z = Some r -> size r < size (opt_list q)).
Proof.
  induction 1 as [q|ws w q l r z T ST [I1 I2]].
  - split; [lia|congruence].
  - apply take_line_splits in T as (_ & T & _). cbn [opt_list]. destruct q as [ws'|].
    + specialize (T _ eq_refl). cbn [opt_list] in *. split; [lia|]. intros _ r' ->. cbn [opt_list] in *. lia.
    + apply steps_none in ST as [-> ->]. split; [unfold size; cbn; lia|discriminate].
Qed.

(** ** columns *)
Lemma counts_len lead ae h n : n <= Z.to_nat (max_line_count h lead ae) ->
  (Z.of_nat n <= Z.max 0 (max_line_count h lead ae))%Z.
Proof. lia. Qed.
Lemma shape_simple_spec fuel : forall ws cols ae lead cs, shape_simple fuel ws cols ae lead = Ok cs ->
  steps ws (placed cols cs) None /\ counts_ok lead ae cols cs /\ cs <> [].
Proof.
  induction fuel as [|fuel IH]; intros ws cols ae lead cs; cbn [shape_simple]; [discriminate|]. intros E.
  apply bind_ok in E as (b & T & E). apply take_box_spec in T as (_ & T1 & T2 & _).
  destruct (b_rest b) as [ws'|].
  - apply bind_ok in E as (r & E1 & E). apply Ok_inj in E. subst cs. apply IH in E1 as (I1 & I2 & _).
    split; [|split; [|discriminate]]; cbn.
    + eapply steps_app; eauto.
    + split; auto using counts_len.
  - apply Ok_inj in E. subst cs. cbn. rewrite app_nil_r. split; [exact T1|]. split; [|discriminate].
    auto using counts_len.
Qed.
(** the orphan condition at the current column *)
Definition fixable (ws : option (list wordlike)) (lines : list line) (col : num * num) (lead : num) : Prop :=
  exists b, take_box ws col false lead = Ok b /\ b_rest b = None
    /\ List.length (b_lines b) = 1 /\ 2 < List.length lines /\ nleb (nmul lead (nZ 2)) (snd col) = true.
Lemma orphan_loop_spec fuel : forall ws lines undo cols lead out,
  orphan_loop fuel ws lines undo cols lead = Ok out ->
  exists ls out', out = ls :: out' /\ out' <> [] /\ counts_ok lead false cols out'
    /\ ((ls = lines /\ steps ws (placed cols out') None)
        \/ (ls = removelast lines /\ fixable ws lines (cols 0) lead
            /\ exists u, undo = Some u /\ steps (Some u) (placed cols out') None)).
Proof.
  induction fuel as [|fuel IH]; intros ws lines undo cols lead out; cbn [orphan_loop]; [discriminate|]. intros E.
  apply bind_ok in E as (b & T & E). assert (T0 := T). apply take_box_spec in T as (_ & T1 & T2 & _).
  destruct (b_rest b) as [ws'|] eqn:R.
  - apply bind_ok in E as (r & E1 & E). apply Ok_inj in E. subst out.
    apply IH in E1 as (ls & out' & -> & N & CO & [[-> ST]|(-> & F & u & U & ST)]).
    + exists lines, (b_lines b :: out'). split; [auto|]. split; [discriminate|].
      split; [cbn; auto using counts_len|]. left. split; [auto|]. cbn. eapply steps_app; eauto.
    + exists lines, (removelast (b_lines b) :: out'). split; [auto|]. split; [discriminate|].
      assert (NB : b_lines b <> []). { destruct F as (? & _ & _ & _ & L & _). destruct (b_lines b); cbn in L; [lia|discriminate]. }
      apply take_box_spec in T0 as (_ & _ & _ & _ & _ & TB). destruct (TB NB) as (u' & l & U' & EL & ST' & TL).
      rewrite U' in U. injection U as <-.
      split; [cbn; split; [|exact CO]|].
      * apply counts_len. rewrite EL, app_length in T2. cbn in T2. lia.
      * left. split; [auto|]. cbn. eapply steps_app; eauto.
  - assert (FIN : forall o, o = [lines; b_lines b] -> exists ls out', o = ls :: out' /\ out' <> [] /\ counts_ok lead false cols out'
       /\ ((ls = lines /\ steps ws (placed cols out') None)
        \/ (ls = removelast lines /\ fixable ws lines (cols 0) lead
            /\ exists u, undo = Some u /\ steps (Some u) (placed cols out') None))).
    { intros o ->. exists lines, [b_lines b]. split; [auto|]. split; [discriminate|]. cbn.
      rewrite app_nil_r. split; [auto using counts_len|]. left. auto. }
    destruct ((List.length (b_lines b) =? 1) && (2 <? List.length lines) && nleb (nmul lead (nZ 2)) (snd (cols 0))) eqn:C.
    + destruct undo as [u|]; [|discriminate]. apply bind_ok in E as (n & N & E).
      destruct (List.length (b_lines n) =? 1) eqn:L1; [apply Ok_inj in E; apply FIN; auto|].
      apply andb_true_iff in C as [C C3]. apply andb_true_iff in C as [C1 C2].
      apply Nat.eqb_eq in C1. apply Nat.ltb_lt in C2. apply Nat.eqb_neq in L1.
      apply IH in E as (ls & out' & -> & NE & CO & [[-> ST]|(-> & F & _)]).
      * eexists _, _. split; [reflexivity|]. split; [auto|]. split; [auto|]. right.
        split; [auto|]. split; [exists b; auto 10|]. eauto.
      * exfalso. destruct F as (b' & F1 & F2 & F3 & _). rewrite N in F1. apply Ok_inj in F1. subst b'. congruence.
    + apply Ok_inj in E. apply FIN. auto.
Qed.
(** the lines of a column, and the words from the last line on *)
Definition undo_ok (width : num) (lines : list line) (ws undo : option (list wordlike)) : Prop :=
  lines <> [] -> exists u l, undo = Some u /\ lines = removelast lines ++ [l] /\ take_line u width = Ok (ws, l).
Lemma shape_orphans_spec fuel ws cols ae lead cs : shape_orphans fuel (Some ws) cols ae lead = Ok cs ->
  steps (Some ws) (placed cols cs) None /\ counts_ok lead ae cols cs /\ cs <> [].
Proof.
  unfold shape_orphans. intros E. apply bind_ok in E as (b & T & E).
  assert (T0 := T). apply take_box_spec in T as (_ & T1 & T2 & _ & T3 & T4).
  destruct (b_rest b) as [ws'|] eqn:R.
  2:{ apply Ok_inj in E. subst cs. cbn. rewrite app_nil_r. split; [exact T1|]. split; [|discriminate].
      auto using counts_len. }
  destruct ((List.length (b_lines b) =? 1) && ae) eqn:C.
  - apply andb_true_iff in C as [C ->]. apply Nat.eqb_eq in C.
    destruct (b_lines b) as [|l [|l' ls]] eqn:B; try discriminate.
    destruct T4 as (u & l' & U & _ & ST & _); [discriminate|]. cbn in ST.
    apply orphan_loop_spec in E as (ls & out' & -> & N & CO & [[-> ST']|(_ & F & _)]).
    + split; [|split; [|discriminate]]; cbn.
      * inversion ST; subst. rewrite U in ST'. exact ST'.
      * split; [lia|exact CO].
    + destruct F as (_ & _ & _ & _ & F & _). cbn in F. lia.
  - apply orphan_loop_spec in E as (ls & out' & -> & N & CO & [[-> ST']|(-> & F & u & U & ST')]).
    + split; [|split; [|discriminate]]; cbn.
      * eapply steps_app; eauto.
      * split; auto using counts_len.
    + assert (NB : b_lines b <> []). { destruct F as (? & _ & _ & _ & L & _). destruct (b_lines b); cbn in L; [lia|discriminate]. }
      destruct (T4 NB) as (u' & l & U' & EL & ST & _). rewrite U' in U. injection U as <-.
      split; [|split; [|discriminate]]; cbn.
      * eapply steps_app; eauto.
      * split; [|exact CO]. apply counts_len. rewrite EL, app_length in T2. cbn in T2. lia.
Qed.

(** ** justification *)
Lemma justify_alike l l' : justify l = Ok l' -> Forall2 alike (l_words l) (l_words l').
Proof.
  unfold justify. destruct (pdiv _ _) as [per|]; intros E.
  - apply bind_ok in E as (ws & E1 & E). apply Ok_inj in E. subst l'. cbn. apply mapM_ok in E1.
    induction E1; constructor; auto. eapply wl_extend_alike; eauto.
  - apply Ok_inj in E. subst l'. induction (l_words l); constructor; auto using alike_refl.
Qed.

(** ** termination *)
Section Term.
Variable P : list wordlike -> Prop.
Variable E : exn -> Prop.
(** the widths of columns that may occur *)
Variable Wd : num -> Prop.
Hypothesis P_step : forall ws w q l, Wd w -> P ws -> take_line ws w = Ok (q, l) -> P (opt_list q).
Hypothesis E_step : forall ws w e, Wd w -> P ws -> take_line ws w = Err e -> E e.
Lemma take_lines_err n : forall q prev w acc e, Wd w -> P (opt_list q) -> take_lines n q prev w acc = Err e -> E e.
Proof.
  induction n as [|n IH]; intros q prev w acc e CW HP; cbn [take_lines]; [discriminate|].
  destruct q as [ws|]; [|discriminate]. cbn in HP. destruct (take_line ws w) as [[q l]|e'] eqn:T; cbn.
  - apply IH; [exact CW|]. eapply P_step; eauto.
  - intros [= <-]. eauto.
Qed.
Lemma steps_P0 q ls z : steps q ls z -> Forall (fun p => Wd (fst p)) ls -> P (opt_list q) -> P (opt_list z).
Proof. induction 1; auto. intros F HP. inversion F; subst. apply IHsteps; [assumption|]. eapply P_step; eauto. Qed.
Lemma steps_P q w ls z : steps q (map (pair w) ls) z -> Wd w -> P (opt_list q) -> P (opt_list z).
Proof. intros S CW. apply (steps_P0 _ _ _ S). apply Forall_map. apply Forall_forall. intros l _. exact CW. Qed.
Lemma take_box_err q col ae (lead : num) e : neqb lead n0 = false -> Wd (fst col) -> P (opt_list q) ->
  take_box q col ae lead = Err e -> E e.
Proof. unfold take_box. intros ->. apply take_lines_err. Qed.
Definition roomy (lead : num) (cols : nat -> num * num) : Prop :=
  forall i, (0 <= nfloordiv (snd (cols i)) lead)%Z.
Lemma roomy_tl lead cols : roomy lead cols -> roomy lead (fun i => cols (S i)).
Proof. intros H i. apply H. Qed.
Lemma roomy_count lead cols i : roomy lead cols -> (1 <= max_line_count (snd (cols i)) lead false)%Z.
Proof. intros H. specialize (H i). unfold max_line_count. destruct (Z.eqb_spec (nfloordiv (snd (cols i)) lead) 0); lia. Qed.
Lemma box_progress q col lead b r : take_box q col false lead = Ok b -> (1 <= max_line_count (snd col) lead false)%Z ->
  b_rest b = Some r -> b_lines b <> [] /\ size r < size (opt_list q)
  /\ (2 < List.length (b_lines b) -> exists u, b_undo b = Some u /\ size u < size (opt_list q)).
Proof.
  intros T M R. apply take_box_spec in T as (_ & T1 & _ & T2 & _ & T3).
  rewrite R in *. assert (NB : b_lines b <> []).
  { intros C. rewrite C in T2. cbn in T2. specialize (T2 ltac:(discriminate)). lia. }
  split; [exact NB|]. split.
  - apply steps_size in T1 as [_ T1]. apply T1; auto. intros C. apply map_eq_nil in C. auto.
  - intros L. destruct (T3 NB) as (u & l & U & EL & ST & _). exists u. split; auto.
    apply steps_size in ST as [_ ST]. apply ST; auto. intros C. apply map_eq_nil in C. rewrite C in EL.
    rewrite EL in L. cbn in L. lia.
Qed.
Lemma shape_simple_err fuel : forall ws cols (ae : bool) (lead : num) e, neqb lead n0 = false -> roomy lead cols -> (forall i, Wd (fst (cols i))) -> P (opt_list ws) ->
  size (opt_list ws) + (if ae then 1 else 0) < fuel -> shape_simple fuel ws cols ae lead = Err e -> E e.
Proof.
  induction fuel as [|fuel IH]; intros ws cols ae lead e L RM CC HP F; [lia|]. cbn [shape_simple].
  destruct (take_box ws (cols 0) ae lead) as [b|e'] eqn:T; cbn [bind].
  2:{ intros [= <-]. eapply take_box_err; eauto. }
  destruct (b_rest b) as [ws'|] eqn:R; [|discriminate].
  destruct (shape_simple fuel _ _ _ _) as [x|e'] eqn:S; cbn [bind]; [discriminate|]. intros [= <-].
  assert (T0 := T). apply take_box_spec in T as (_ & T1 & _). rewrite R in T1.
  eapply IH in S; eauto using roomy_tl.
  - eapply steps_P in T1; eauto.
  - cbn [opt_list]. destruct ae.
    + apply steps_size in T1 as [T1 _]. cbn [opt_list] in T1. lia.
    + eapply box_progress in T0 as (_ & T0 & _); eauto using roomy_count. lia.
Qed.
Lemma orphan_loop_err fuel : forall ws lines undo cols (lead : num) e, neqb lead n0 = false -> roomy lead cols -> (forall i, Wd (fst (cols i))) ->
  P (opt_list ws) ->
  (ws <> None) ->
  ((2 * size (opt_list ws) + 2 <= fuel
    /\ (2 < List.length lines -> exists u, undo = Some u /\ P u /\ 2 * size u + 2 <= fuel))
   \/ (2 * size (opt_list ws) + 1 <= fuel /\ ~ fixable ws lines (cols 0) lead)) ->
  orphan_loop fuel ws lines undo cols lead = Err e -> E e.
Proof.
  induction fuel as [|fuel IH]; intros ws lines undo cols lead e L RM CC HP NW F; [lia|]. cbn [orphan_loop].
  destruct (take_box ws (cols 0) false lead) as [b|e'] eqn:T; cbn [bind].
  2:{ intros [= <-]. eapply take_box_err; eauto. }
  destruct (b_rest b) as [ws'|] eqn:R.
  - destruct (orphan_loop fuel _ _ _ _ _) as [x|e'] eqn:S; cbn [bind]; [discriminate|]. intros [= <-].
    assert (T0 := T). apply take_box_spec in T as (_ & T1 & _ & _ & _ & T3). rewrite R in T1.
    destruct (box_progress _ _ _ _ _ T0 (roomy_count _ _ 0 RM) R) as (NB & D & D2).
    eapply IH in S; eauto using roomy_tl.
    + apply steps_P in T1; auto.
    + discriminate.
    + left. cbn [opt_list]. split; [lia|]. intros L2. destruct (D2 L2) as (u & U & D3). exists u.
      split; [exact U|]. split; [|lia]. destruct (T3 NB) as (u' & l & U' & _ & ST & _). rewrite U in U'.
      injection U' as <-. apply steps_P in ST; auto.
  - destruct ((List.length (b_lines b) =? 1) && (2 <? List.length lines) && nleb (nmul lead (nZ 2)) (snd (cols 0))) eqn:CD;
      [|discriminate].
    apply andb_true_iff in CD as [CD C3]. apply andb_true_iff in CD as [C1 C2].
    apply Nat.eqb_eq in C1. apply Nat.ltb_lt in C2.
    assert (FX : fixable ws lines (cols 0) lead) by (exists b; auto 10).
    destruct F as [[F1 F2]|[_ F]]; [|contradiction]. destruct (F2 C2) as (u & -> & PU & SU).
    destruct (take_box (Some u) (cols 0) false lead) as [n|e'] eqn:T2; cbn [bind].
    2:{ intros [= <-]. eapply take_box_err; [exact L|apply CC| |exact T2]. exact PU. }
    destruct (List.length (b_lines n) =? 1) eqn:L1; [discriminate|]. intros S.
    apply Nat.eqb_neq in L1. eapply IH in S; eauto; [discriminate|]. right. cbn [opt_list]. split; [lia|].
    intros (b' & F1' & F2' & F3' & _). rewrite T2 in F1'. apply Ok_inj in F1'. subst. congruence.
Qed.
Lemma shape_orphans_err fuel ws cols ae (lead : num) e : neqb lead n0 = false -> roomy lead cols -> (forall i, Wd (fst (cols i))) ->
  P ws -> 2 * size ws + 2 <= fuel -> shape_orphans fuel (Some ws) cols ae lead = Err e -> E e.
Proof.
  intros L RM CC HP F. unfold shape_orphans.
  destruct (take_box (Some ws) (cols 0) ae lead) as [b|e'] eqn:T; cbn [bind].
  2:{ intros [= <-]. eapply take_box_err; [exact L|apply CC| |exact T]. exact HP. }
  destruct (b_rest b) as [ws'|] eqn:R; [|discriminate].
  apply take_box_spec in T as (_ & T1 & _ & _ & _ & T4). rewrite R in T1.
  destruct ((List.length (b_lines b) =? 1) && ae) eqn:CD.
  - apply andb_true_iff in CD as [CD _]. apply Nat.eqb_eq in CD.
    destruct (b_lines b) as [|l [|l' ls]] eqn:B; try discriminate.
    destruct T4 as (u & l' & U & _ & ST & _); [discriminate|]. cbn in ST. inversion ST; subst.
    rewrite U. apply orphan_loop_err; auto using roomy_tl; [discriminate|]. left. split; [exact F|]. cbn. lia.
  - assert (S1 := steps_size _ _ _ T1). destruct S1 as [S1 _]. cbn [opt_list] in S1.
    assert (P1 := steps_P _ _ _ _ T1 (CC 0) HP). cbn [opt_list] in P1.
    apply orphan_loop_err; auto using roomy_tl; [discriminate|]. left. cbn [opt_list]. split; [lia|].
    intros L2. assert (NB : b_lines b <> []) by (intros Z; rewrite Z in L2; cbn in L2; lia).
    destruct (T4 NB) as (u & l & U & _ & ST & _). exists u. split; [exact U|].
    assert (P2 := steps_P _ _ _ _ ST (CC 0) HP). apply steps_size in ST as [ST _]. cbn [opt_list] in *. split; [auto|lia].
Qed.
End Term.
(** negative heights: nothing is ever placed *)
Lemma take_box_negative q col ae (lead : num) : neqb lead n0 = false -> (nfloordiv (snd col) lead < 0)%Z ->
  take_box q col ae lead = Ok (mkFilled q [] q).
Proof.
  intros L H. unfold take_box. rewrite L. unfold max_line_count.
  destruct (Z.eqb_spec (nfloordiv (snd col) lead) 0); [lia|].
  replace (Z.to_nat _) with 0 by lia. reflexivity.
Qed.
Lemma shape_simple_negative fuel : forall ws cols ae (lead : num), neqb lead n0 = false ->
  (forall i, (nfloordiv (snd (cols i)) lead < 0)%Z) -> shape_simple fuel (Some ws) cols ae lead = Err EFuel.
Proof.
  induction fuel as [|fuel IH]; intros ws cols ae lead L H; [reflexivity|]. cbn [shape_simple].
  rewrite take_box_negative by auto. cbn. rewrite IH; auto.
Qed.
Lemma orphan_loop_negative fuel : forall ws lines undo cols (lead : num), neqb lead n0 = false ->
  (forall i, (nfloordiv (snd (cols i)) lead < 0)%Z) -> orphan_loop fuel (Some ws) lines undo cols lead = Err EFuel.
Proof.
  induction fuel as [|fuel IH]; intros ws lines undo cols lead L H; [reflexivity|]. cbn [orphan_loop].
  rewrite take_box_negative by auto. cbn. rewrite IH; auto.
Qed.
Lemma shape_orphans_negative fuel ws cols ae (lead : num) : neqb lead n0 = false ->
  (forall i, (nfloordiv (snd (cols i)) lead < 0)%Z) -> shape_orphans fuel (Some ws) cols ae lead = Err EFuel.
Proof.
  intros L H. unfold shape_orphans. rewrite take_box_negative by auto. cbn. apply orphan_loop_negative; auto.
Qed.

(** ** orphans *)
Lemma steps_pairs q ls z : steps q ls z -> forall l, In l ls -> exists ws q', take_line ws (fst l) = Ok (q', snd l).
Proof. induction 1; intros x I; [contradiction|]. destruct I as [<-|I]; eauto. Qed.
Lemma two_lines u w q l1 l2 h lead b : take_line u w = Ok (Some q, l1) -> take_line q w = Ok (None, l2) ->
  (2 <= nfloordiv h lead)%Z -> take_box (Some u) (w, h) false lead = Ok b -> b_lines b = [l1; l2].
Proof.
  intros T1 T2 H. unfold take_box. destruct (neqb lead n0); [discriminate|]. cbn [fst snd]. unfold max_line_count.
  destruct (Z.eqb_spec (nfloordiv h lead) 0); [lia|].
  destruct (Z.to_nat (nfloordiv h lead)) as [|[|m]] eqn:N; try lia. cbn [take_lines].
  rewrite T1. cbn. rewrite T2. cbn. rewrite take_lines_None. intros [= <-]. reflexivity.
Qed.
Lemma orphan_avoided fuel : forall ws lines undo cols (lead : num) out w,
  orphan_loop fuel ws lines undo cols lead = Ok out ->
  (forall i, fst (cols i) = w) ->
  (forall i, nleb (nmul lead (nZ 2)) (snd (cols i)) = true -> (2 <= nfloordiv (snd (cols i)) lead)%Z) ->
  (undo_ok w lines ws undo \/ ~ fixable ws lines (cols 0) lead) ->
  forall pre p l, out = pre ++ [p; l] -> 2 < List.length p ->
    nleb (nmul lead (nZ 2)) (snd (cols (List.length pre))) = true -> List.length l <> 1.
Proof.
  induction fuel as [|fuel IH]; intros ws lines undo cols lead out w; cbn [orphan_loop]; [discriminate|].
  intros E HW HT UN pre p l EO LP HL.
  apply bind_ok in E as (b & T & E). assert (T0 := T). apply take_box_spec in T as (_ & T1 & T2 & _ & _ & T3).
  destruct (b_rest b) as [ws'|] eqn:R.
  - apply bind_ok in E as (r & E1 & E). apply Ok_inj in E. assert (E2 := E1).
    apply orphan_loop_spec in E2 as (ls & out' & -> & N & _).
    destruct pre as [|x pre].
    { exfalso. destruct out' as [|? out']; [congruence|]. rewrite <- E in EO. cbn in EO. injection EO as _ _ EO. discriminate. }
    rewrite <- E in EO. injection EO as <- EO. eapply (IH _ _ _ _ _ _ w E1); eauto.
    left. intros NB. destruct (T3 NB) as (u & l0 & U & EL & ST & TL). exists u, l0. rewrite <- (HW 0). auto.
  - assert (FIN : [lines; b_lines b] = out -> pre = [] /\ p = lines /\ l = b_lines b).
    { intros <-. destruct pre as [|x [|y pre]]; cbn in EO.
      - injection EO as <- <-. auto.
      - discriminate.
      - injection EO as _ _ EO. symmetry in EO. apply app_eq_nil in EO as [_ EO]. discriminate. }
    destruct ((List.length (b_lines b) =? 1) && (2 <? List.length lines) && nleb (nmul lead (nZ 2)) (snd (cols 0))) eqn:C.
    + destruct undo as [u|]; [|discriminate]. apply bind_ok in E as (n & N & E).
      apply andb_true_iff in C as [C C3]. apply andb_true_iff in C as [C1 C2].
      apply Nat.eqb_eq in C1. apply Nat.ltb_lt in C2.
      destruct (List.length (b_lines n) =? 1) eqn:L1.
      * exfalso. apply Nat.eqb_eq in L1. destruct UN as [UN|UN]; [|apply UN; exists b; auto 10].
        destruct UN as (u' & l0 & U & EL & TL); [intros C; rewrite C in C2; cbn in C2; lia|]. injection U as <-.
        destruct (b_lines b) as [|l1 [|l2 x]] eqn:B; try discriminate. cbn in T1. inversion T1; subst.
        match goal with S : steps _ [] _ |- _ => inversion S; subst end.
        match goal with H : take_line ws0 _ = _ |- _ => rename H into TB end.
        assert (LE : b_lines n = [l0; l1]).
        { destruct (cols 0) as [w0 h0] eqn:C0. specialize (HW 0). rewrite C0 in HW. cbn in HW. subst w0.
          specialize (HT 0). rewrite C0 in HT. exact (two_lines _ _ _ _ _ _ _ _ TL TB (HT C3) N). }
        rewrite LE in L1. discriminate.
      * eapply (IH _ _ _ _ _ _ w E); eauto. right. apply Nat.eqb_neq in L1.
        intros (b' & F1 & F2 & F3 & _). rewrite N in F1. apply Ok_inj in F1. subst. congruence.
    + apply Ok_inj in E. destruct (FIN E) as (-> & -> & ->). cbn in HL. rewrite HL in C.
      apply andb_false_iff in C as [C|C]; [|discriminate]. apply andb_false_iff in C as [C|C].
      * apply Nat.eqb_neq in C. exact C.
      * apply Nat.ltb_ge in C. lia.
Qed.
Lemma shape_orphans_avoided fuel ws cols ae (lead : num) cs w : shape_orphans fuel (Some ws) cols ae lead = Ok cs ->
  (forall i, fst (cols i) = w) ->
  (forall i, nleb (nmul lead (nZ 2)) (snd (cols i)) = true -> (2 <= nfloordiv (snd (cols i)) lead)%Z) ->
  forall pre p l, cs = pre ++ [p; l] -> 2 < List.length p ->
    nleb (nmul lead (nZ 2)) (snd (cols (S (List.length pre)))) = true -> List.length l <> 1.
Proof.
  unfold shape_orphans. intros E HW HT pre p l EO LP HL. apply bind_ok in E as (b & T & E).
  apply take_box_spec in T as (_ & T1 & T2 & _ & _ & T3).
  destruct (b_rest b) as [ws'|] eqn:R.
  2:{ apply Ok_inj in E. rewrite <- E in EO. destruct pre as [|x [|]]; discriminate. }
  destruct ((List.length (b_lines b) =? 1) && ae) eqn:C.
  - eapply (orphan_avoided _ _ _ _ _ _ _ w E); eauto.
    left. intros N. congruence.
  - eapply (orphan_avoided _ _ _ _ _ _ _ w E); eauto.
    left. intros NB. destruct (T3 NB) as (u & l0 & U & EL & ST & TL). exists u, l0. rewrite <- (HW 0). auto.
Qed.
(** a paragraph that does not end in the first column does not leave one line there *)
Lemma shape_orphans_first fuel ws cols lead first rest : shape_orphans fuel (Some ws) cols true lead = Ok (first :: rest) ->
  rest <> [] -> List.length first <> 1.
Proof.
  unfold shape_orphans. intros E N. apply bind_ok in E as (b & T & E).
  destruct (b_rest b) as [ws'|] eqn:R.
  2:{ apply Ok_inj in E. congruence. }
  rewrite andb_true_r in E. destruct (List.length (b_lines b) =? 1) eqn:C.
  - apply orphan_loop_spec in E as (ls & out' & E & _ & _ & [[-> _]|(-> & _)]); injection E as -> _; cbn; lia.
  - apply Nat.eqb_neq in C. apply orphan_loop_spec in E as (ls & out' & E & _ & _ & [[-> _]|(-> & F & _)]).
    + injection E as -> _. exact C.
    + injection E as -> _. destruct F as (_ & _ & _ & _ & F & _).
      assert (NB : b_lines b <> []) by (intros Z; rewrite Z in F; cbn in F; lia).
      apply (app_removelast_last (mkLine [] n0 n0)) in NB. rewrite NB, app_length in F. cbn in F. lia.
Qed.
End Structure.
