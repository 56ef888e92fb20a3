(** * Properties C40-C42: optimal line breaking.
    Specification: KPSpec (lines, ratios, demerits, feasible breakings). *)
From Coq Require Import QArith Qcanon Qround Lqa Sorted.
From Verif Require Import Base Num KnuthPlass KPSpec KPProofs.
Open Scope nat_scope.

Definition pos_ratio {NUM : Num} (b : break) : nat * num := (br_pos b, br_adjust b).

Section Lists.
Context {NUM : Num}.
Lemma breaking_shape bs width t P ragged k i c h d l total :
  breaking bs width t P ragged k i c h d l total ->
  exists init r, l = init ++ [(List.length bs, r)] /\ StronglySorted lt (i :: map fst l)
    /\ nltb (nZ (-1)) r = true /\ (exists q, r = nmin q n0)
    /\ Forall (fun x => (exists b, nth_error bs (fst x - 1) = Some b /\ kb_no_break b = false)
                        /\ nltb (snd x) (nZ (-1)) = false /\ within (snd x) t = true) init.
Proof.
  induction 1.
  - exists [], r. cbn. repeat split; auto. repeat constructor; auto. exists q; auto.
  - destruct IHbreaking as (init & r0 & -> & S & R0 & Q & F). exists ((p, r) :: init), r0.
    repeat split; auto.
    + cbn [map fst]. cbn [map fst] in S. constructor; auto. constructor; [lia|].
      apply StronglySorted_inv in S as (_ & S). eapply Forall_impl; [|exact S]. intros; cbn in *; lia.
    + constructor; auto. cbn. repeat split; auto. exists b; auto.
Qed.
Lemma breaking_det bs width t P ragged k i c h d l total :
  breaking bs width t P ragged k i c h d l total ->
  forall total', breaking bs width t P ragged k i c h d l total' -> total = total'.
Proof.
  induction 1; intros total' B; inversion B; subst; try lia;
    try (match goal with H : breaking _ _ _ _ _ _ _ _ _ _ [] _ |- _ => inversion H end);
    repeat match goal with H : is_class _ _ |- _ => apply fitness_spec in H end; subst.
  - reflexivity.
  - apply IHbreaking.
    match goal with H : nth_error bs (p - 1) = Some b, H' : nth_error bs (p - 1) = Some ?b0 |- _ => rewrite H in H'; inversion H'; subst end.
    assumption.
Qed.
Lemma map_snoc {A B} (f : A -> B) l init x : map f l = init ++ [x] ->
  exists l0 y, l = l0 ++ [y] /\ map f l0 = init /\ f y = x.
Proof.
  intros H. apply map_eq_app in H as (l0 & l1 & -> & H0 & H1).
  destruct l1 as [|y [|]]; inversion H1. exists l0, y. auto.
Qed.
End Lists.

(** ** C40.  The breaks cut the text into consecutive, non-empty lines: positions
    ascend strictly from 0, the last is the end of the text, and every other
    one is a place where breaking is allowed. *)
Theorem C40_breaks_partition : forall (NUM : Num) bs width t P ragged brs,
  optimum_fit width t P ragged bs = Ok brs ->
  (bs = [] /\ brs = [])
  \/ exists init b, brs = init ++ [b] /\ br_pos b = List.length bs
     /\ StronglySorted lt (0 :: map br_pos brs)
     /\ Forall (fun x => exists bx, nth_error bs (br_pos x - 1) = Some bx /\ kb_no_break bx = false) init.
Proof.
  intros NUM bs width t P ragged brs H. destruct bs as [|b0 rest] eqn:Eb.
  - left. cbn in H. inversion H; auto.
  - right. rewrite <- Eb in *. assert (NE : bs <> []) by congruence. clear Eb.
    destruct (optimum_fit_sound bs width t P ragged brs NE H) as (total & F).
    apply breaking_shape in F as (init & r & E & S & _ & _ & A).
    apply map_snoc in E as (l0 & y & -> & Ei & Ey). exists l0, y. inversion Ey. repeat split; auto.
    + rewrite map_map in S. exact S.
    + subst init. rewrite Forall_map in A. eapply Forall_impl; [|exact A]. intros x (X & _). exact X.
Qed.
Print Assumptions C40_breaks_partition.

(** ** C41.  Each line's ratio is the one its content and column determine; all
    lines but the last are within [-1, tolerance], the last within (-1, 0]. *)
Theorem C41_tolerance : forall (NUM : Num) bs width t P ragged brs,
  bs <> [] -> nltb n0 n0 = false ->
  optimum_fit width t P ragged bs = Ok brs ->
  exists init b, brs = init ++ [b]
  /\ Forall (fun x => nltb (br_adjust x) (nZ (-1)) = false /\ within (br_adjust x) t = true) init
  /\ nltb (nZ (-1)) (br_adjust b) = true /\ nltb n0 (br_adjust b) = false
  /\ exists total, feasible bs width t P ragged (map pos_ratio brs) total.
Proof.
  intros NUM bs width t P ragged brs NE Z H.
  destruct (optimum_fit_sound bs width t P ragged brs NE H) as (total & F). pose proof F as F0.
  apply breaking_shape in F as (init & r & E & _ & R & (q & Q) & A).
  apply map_snoc in E as (l0 & y & -> & Ei & Ey). exists l0, y. inversion Ey as [[Y1 Y2]].
  split; [auto|]. split; [|split; [|split]].
  - subst init. rewrite Forall_map in A. eapply Forall_impl; [|exact A]. intros x (_ & X & Y). cbn in X, Y. auto.
  - rewrite Y2. exact R.
  - rewrite Y2, Q. unfold nmin. destruct (nltb n0 q) eqn:L; auto.
  - exists total. exact F0.
Qed.
Print Assumptions C41_tolerance.

(** In exact arithmetic the ratio is what fills the line: natural length plus
    ratio times stretchability (or shrinkability) is the width of the column. *)
Theorem C41_ratio_fills : forall start stop st sh W r : Qc,
  @justified_ratio QcNum start stop st sh W r ->
  ((stop - start < W -> st <> 0 -> (stop - start) + r * st = W)
   /\ (W <= stop - start -> sh <> 0 -> (stop - start) + r * sh = W))%Qc.
Proof.
  assert (D : forall a b : Qc, (b <> 0 -> a / b * b = a)%Qc).
  { intros a b Hb. rewrite Qcdiv_def, <- Qcmult_assoc, (Qcmult_comm (/ b)), Qcmult_inv_r, Qcmult_1_r; auto. }
  intros start stop st sh W r H. split; intros L N.
  - apply Qcltb_lt in L. destruct H as [A B|A B|A B|A B C].
    + change (stop - start + (W - (stop - start)) / st * st = W)%Qc. rewrite D by exact N. ring.
    + change (Qcltb (stop - start)%Qc W = false) in A. congruence.
    + change (@nltb QcNum (@nsub QcNum stop start) W) with (Qcltb (stop - start)%Qc W) in B. rewrite L in B. apply Qceqb_eq in B. contradiction.
    + change (@nltb QcNum (@nsub QcNum stop start) W) with (Qcltb (stop - start)%Qc W) in B. rewrite L in B. apply Qceqb_eq in B. contradiction.
  - apply Qcltb_nlt in L. destruct H as [A B|A B|A B|A B C].
    + change (Qcltb (stop - start)%Qc W = true) in A. congruence.
    + change (stop - start + (W - (stop - start)) / sh * sh = W)%Qc. rewrite D by exact N. ring.
    + change (@nltb QcNum (@nsub QcNum stop start) W) with (Qcltb (stop - start)%Qc W) in B. rewrite L in B. apply Qceqb_eq in B. contradiction.
    + change (@nltb QcNum (@nsub QcNum stop start) W) with (Qcltb (stop - start)%Qc W) in B. rewrite L in B. apply Qceqb_eq in B. contradiction.
Qed.
Print Assumptions C41_ratio_fills.

(** ** C42.  Optimality: no feasible breaking has less demerits than the
    returned one, and [NoFeasibleBreaks] means that there is none -- if
    overfull lines stay overfull when extended. *)
Theorem C42_optimal_partial : forall (NUM : Num) bs width t P ragged,
  ordered NUM -> overfull_stays bs width ragged -> bs <> [] ->
  match optimum_fit width t P ragged bs with
  | Ok brs => exists total, feasible bs width t P ragged (map pos_ratio brs) total
                /\ forall l' total', feasible bs width t P ragged l' total' -> nltb total' total = false
  | Err ENoFeasible => forall l total, ~ feasible bs width t P ragged l total
  | Err _ => True
  end.
Proof.
  intros NUM bs width t P ragged ORD ST NE.
  destruct (optimum_fit width t P ragged bs) as [brs|e] eqn:O.
  - destruct (optimum_fit_inv bs width t P ragged brs NE O) as (g & last & opts & e & A & _ & L & EO & I & _ & ->).
    pose proof (end_feasible bs width t P ragged g last opts e A L EO I) as F.
    assert (DET : forall total, feasible bs width t P ragged (map pos_ratio (unroll e)) total -> total = e_demerits e).
    { intros total F'. eapply breaking_det; eauto. }
    exists (e_demerits e). split; [exact F|]. intros l' total' F'.
    pose proof (optimum_fit_complete bs width t P ragged ORD ST l' total' F') as C. rewrite O in C.
    destruct C as (t' & F1 & C). rewrite (DET _ F1) in C. exact C.
  - destruct e; auto. intros l total F.
    pose proof (optimum_fit_complete bs width t P ragged ORD ST l total F) as C. rewrite O in C. congruence.
Qed.
Print Assumptions C42_optimal_partial.

Lemma QcNum_ordered : ordered QcNum.
Proof.
  constructor; cbn [num QcNum nltb nadd].
  - intros a. apply Qcltb_nlt, Qcle_refl.
  - intros a b H. apply Qcltb_nlt. apply Qcltb_lt in H. apply Qclt_le_weak, H.
  - intros a b c H1 H2. apply Qcltb_nlt. apply Qcltb_nlt in H1. apply Qcltb_nlt in H2. eapply Qcle_trans; eauto.
  - intros a b c H. apply Qcltb_nlt. apply Qcltb_nlt in H. qc.
  - vm_compute. reflexivity.
Qed.

(** In exact arithmetic the demerits reported for the lines sum up to the total. *)
Lemma unroll_node_demerits (n : @node QcNum) :
  @nsum QcNum (map br_demerits (unroll_node n)) = n_demerits n.
Proof.
  induction n as [|pos line r f d m s sh h p IH].
  - reflexivity.
  - cbn [unroll_node]. rewrite map_app, nsum_app_Qc, IH. cbn [map br_demerits n_demerits].
    rewrite nsum_cons_Qc. change (@nsum QcNum []) with 0%Qc.
    change (n_demerits p + (d - n_demerits p + 0) = d)%Qc. ring.
Qed.
Theorem C42_optimal_exact_partial : forall bs (width : nat -> Qc) t P ragged brs,
  @overfull_stays QcNum bs width ragged -> bs <> [] ->
  @optimum_fit QcNum width t P ragged bs = Ok brs ->
  let total := @nsum QcNum (map br_demerits brs) in
  @feasible QcNum bs width t P ragged (map pos_ratio brs) total
  /\ forall l' total', @feasible QcNum bs width t P ragged l' total' -> (total <= total')%Qc.
Proof.
  intros bs width t P ragged brs ST NE O total.
  destruct (optimum_fit_inv bs width t P ragged brs NE O) as (g & last & opts & e & A & _ & L & EO & I & _ & E).
  pose proof (end_feasible bs width t P ragged g last opts e A L EO I) as F.
  assert (T : total = e_demerits e).
  { unfold total. rewrite E. unfold unroll. rewrite map_app, nsum_app_Qc, unroll_node_demerits. cbn [map br_demerits].
    rewrite nsum_cons_Qc. change (@nsum QcNum []) with 0%Qc.
    change (n_demerits (e_prev e) + (e_demerits e - n_demerits (e_prev e) + 0) = e_demerits e)%Qc. ring. }
  rewrite T, E. split; [exact F|]. intros l' total' F'.
  pose proof (C42_optimal_partial QcNum bs width t P ragged QcNum_ordered ST NE) as C. rewrite O in C.
  destruct C as (t0 & F0 & C).
  pose proof (C _ _ F) as C1. pose proof (C _ _ F') as C2.
  (* the returned list has only one total *)
  apply Qcltb_nlt in C2.
  rewrite E in F0. rewrite (breaking_det _ _ _ _ _ _ _ _ _ _ _ _ F _ F0). exact C2.
Qed.
Print Assumptions C42_optimal_exact_partial.

Section Chain.
Context {NUM : Num}.
Variable bs : list kbox.
Lemma snoc_chain l (npos : nat) nm pos me r dm k (b : break) :
  (l = [] /\ nm = n0 \/ exists l0 b0, l = l0 ++ [b0] /\ br_pos b0 = npos
     /\ exists x, nth_error bs (npos - 1) = Some x /\ nm = kb_incl_space x) ->
  (exists x, nth_error bs (pos - 1) = Some x /\ me = kb_incl_space x) ->
  (forall k b, nth_error l k = Some b ->
     exists stop start, br_width b = (stop - start)%num
      /\ (exists x, nth_error bs (br_pos b - 1) = Some x /\ stop = kb_incl_space x)
      /\ (match k with 0 => start = n0
          | S k' => exists b' x, nth_error l k' = Some b' /\ nth_error bs (br_pos b' - 1) = Some x /\ start = kb_incl_space x end)) ->
  let l' := l ++ [mkBreak pos r dm (me - nm)%num] in
  nth_error l' k = Some b ->
  exists stop start, br_width b = (stop - start)%num
      /\ (exists x, nth_error bs (br_pos b - 1) = Some x /\ stop = kb_incl_space x)
      /\ (match k with 0 => start = n0
          | S k' => exists b' x, nth_error l' k' = Some b' /\ nth_error bs (br_pos b' - 1) = Some x /\ start = kb_incl_space x end).
Proof.
  intros H1 (x & Hx & Hm) H2 l' Hk. unfold l' in *. destruct (Nat.lt_ge_cases k (List.length l)) as [Lt|Ge].
  - rewrite nth_error_app1 in Hk by exact Lt. destruct (H2 _ _ Hk) as (sp & st & A & B & C). exists sp, st.
    repeat split; auto. destruct k; auto. destruct C as (b' & y & C & D). exists b', y. rewrite nth_error_app1 by lia. auto.
  - rewrite nth_error_app2 in Hk by exact Ge. destruct (k - List.length l) as [|[|]] eqn:E; try discriminate.
    assert (k = List.length l) by lia. subst k. inversion Hk; subst b. cbn. exists me, nm. repeat split; eauto.
    destruct H1 as [(-> & ->)|(l0 & b0 & -> & Eb & y & Hy & ->)]; [reflexivity|].
    rewrite app_length. cbn. rewrite Nat.add_1_r. exists b0, y.
    rewrite nth_error_app1 by (rewrite app_length; cbn; lia). rewrite nth_error_app2, Nat.sub_diag by lia. cbn.
    rewrite Eb. auto.
Qed.
End Chain.
(** The width recorded for a line is the distance between the ends (trailing
    space included) of the line before it and of the line itself. *)
Theorem C42_widths : forall (NUM : Num) bs width t P ragged brs,
  optimum_fit width t P ragged bs = Ok brs ->
  forall k b, nth_error brs k = Some b ->
  exists stop start, br_width b = (stop - start)%num
    /\ (exists x, nth_error bs (br_pos b - 1) = Some x /\ stop = kb_incl_space x)
    /\ (match k with
        | 0 => start = n0
        | S k' => exists b' x, nth_error brs k' = Some b' /\ nth_error bs (br_pos b' - 1) = Some x
                               /\ start = kb_incl_space x
        end).
Proof.
  intros NUM bs width t P ragged brs H. destruct bs as [|b0 rest] eqn:Eb.
  { cbn in H. inversion H. intros [|]; discriminate. }
  rewrite <- Eb in *. assert (NE : bs <> []) by congruence. clear Eb.
  destruct (optimum_fit_inv bs width t P ragged brs NE H) as (g & last & opts & e & A & _ & L & EO & I & _ & ->).
  destruct (end_options_in width P ragged g last (List.length bs) opts EO e I) as (n & q & In_n & R & Ep & Epos & _ & _ & _ & Em).
  unfold all_good in A. rewrite Forall_forall in A. destruct (A _ In_n) as ((_ & _ & GN) & HP). clear A.
  assert (CH : forall m, chain bs m ->
     (unroll_node m = [] /\ n_measure m = n0
      \/ exists l b, unroll_node m = l ++ [b] /\ br_pos b = n_pos m
          /\ exists x, nth_error bs (n_pos m - 1) = Some x /\ n_measure m = kb_incl_space x)
     /\ forall k b, nth_error (unroll_node m) k = Some b ->
     exists stop start, br_width b = (stop - start)%num
      /\ (exists x, nth_error bs (br_pos b - 1) = Some x /\ stop = kb_incl_space x)
      /\ (match k with 0 => start = n0
          | S k' => exists b' x, nth_error (unroll_node m) k' = Some b' /\ nth_error bs (br_pos b' - 1) = Some x /\ start = kb_incl_space x end)).
  { intros m. induction m as [|pos line r f d me s sh h p IH]; intros C.
    { split; [left; auto|]. intros [|]; discriminate. }
    cbn in C. destruct C as ((x & Hx & Hm) & _ & C). destruct (IH C) as (IH1 & IH2). clear IH. cbn [unroll_node n_pos n_measure].
    split; [right; eexists _, _; split; [reflexivity|]; cbn; eauto|].
    intros k b Hk. apply (snoc_chain bs (unroll_node p) (n_pos p) (n_measure p) pos me r (nsub d (n_demerits p)) k b); eauto. }
  destruct (CH n GN) as (C1 & C2). unfold unroll. rewrite Ep, Epos, Em.
  intros k b Hk. eapply snoc_chain; eauto.
Qed.
Print Assumptions C42_widths.

(** *** When overfull lines stay overfull.
    It suffices that positions never run backwards: each possible line end is
    (after shrinking) not beyond the later ones.  That is so for text without
    hyphenation points; a hyphen wider than the next syllable violates it. *)
Record growing (bs : list (@kbox QcNum)) : Prop := {
  gr_first : forall b, nth_error bs 0 = Some b -> (0 <= kb_stretch b)%Qc /\ (0 <= kb_shrink b)%Qc;
  gr_mono : forall i j a b, i <= j -> nth_error bs i = Some a -> nth_error bs j = Some b ->
    (kb_stretch a <= kb_stretch b)%Qc /\ (kb_shrink a <= kb_shrink b)%Qc;
  gr_start : forall i j a b, i < j -> nth_error bs i = Some a -> nth_error bs j = Some b ->
    (kb_incl_space a <= kb_incl_hyphen b)%Qc;
  gr_nonneg : forall j b, nth_error bs j = Some b -> (0 <= kb_incl_hyphen b)%Qc;
  gr_end : forall i j a b, i < j -> nth_error bs i = Some a -> nth_error bs j = Some b ->
    kb_no_break a = false ->
    (kb_incl_hyphen a - kb_shrink a <= kb_incl_hyphen b - kb_shrink b)%Qc }.

Lemma Qc_div_lt (a b c : Qc) : (0 < b -> a / b < c <-> a < c * b)%Qc.
Proof.
  intros Hb. assert (N : (b <> 0)%Qc). { intros ->. apply (Qclt_not_eq _ _ Hb). reflexivity. }
  assert (E : (a = a / b * b)%Qc).
  { rewrite Qcdiv_def, <- Qcmult_assoc, (Qcmult_comm (/ b)), Qcmult_inv_r, Qcmult_1_r; auto. }
  split; intros H.
  - rewrite E. apply Qcmult_lt_compat_r; auto.
  - rewrite E in H. destruct (Qclt_le_dec (a / b) c) as [|G]; auto.
    exfalso. apply (Qclt_not_le _ _ H). apply Qcmult_le_compat_r; auto. apply Qclt_le_weak, Hb.
Qed.
Lemma nth_error_len {A} (l : list A) j : j < List.length l -> exists x, nth_error l j = Some x.
Proof. intros H. destruct (nth_error l j) eqn:E; eauto. apply nth_error_None in E. lia. Qed.
Lemma growing_start bs i f g h j b : growing bs -> line_start bs i f g h -> i <= j ->
  nth_error bs j = Some b ->
  (f <= kb_incl_hyphen b)%Qc /\ (g <= kb_stretch b)%Qc /\ (h <= kb_shrink b)%Qc.
Proof.
  intros G S L E. destruct i as [|i]; cbn in S.
  - destruct S as (-> & -> & ->). destruct (nth_error_len bs 0) as (b0 & E0).
    { assert (j < List.length bs) by (apply nth_error_Some; congruence). lia. }
    destruct (gr_first _ G _ E0) as (A & B). destruct (gr_mono _ G 0 j b0 b ltac:(lia) E0 E) as (C & D).
    split; [apply (gr_nonneg _ G _ _ E)|]. split; [exact (Qcle_trans _ _ _ A C) | exact (Qcle_trans _ _ _ B D)].
  - destruct S as (a & c & A & C & -> & -> & ->).
    destruct (gr_mono _ G (S i) j c b L C E) as (X & Y).
    split; [apply (gr_start _ G i j a b); auto; lia|]. auto.
Qed.
Theorem C42_no_hyphens_stays : forall bs (width : nat -> Qc) ragged,
  growing bs -> (forall k, 0 < width k)%Qc -> (ragged = true -> Forall (fun b => kb_shrink b = 0%Qc) bs) ->
  @overfull_stays QcNum bs width ragged.
Proof.
  intros bs width ragged G W RS k i j j' b r r' Hij Hjj Hlen Hb NB R O R'.
  destruct R as (b1 & f & g & h & _ & Hb1 & S & R). rewrite Hb in Hb1. inversion Hb1; subst b1. clear Hb1.
  destruct R' as (b' & f' & g' & h' & _ & Hb' & S' & R').
  destruct (line_start_det bs i f' g' h' f g h S' S) as (-> & -> & ->). clear S'.
  pose proof (gr_end _ G (j - 1) (j' - 1) b b' ltac:(lia) Hb Hb' NB) as GE.
  destruct (growing_start _ _ _ _ _ (j - 1) b G S ltac:(lia) Hb) as (S1 & S2 & S3).
  destruct (growing_start _ _ _ _ _ (j' - 1) b' G S ltac:(lia) Hb') as (S1' & S2' & S3').
  pose proof (W k) as Wk. set (Wk' := width k) in *. clearbody Wk'.
  destruct (gr_mono _ G (j - 1) (j' - 1) b b' ltac:(lia) Hb Hb') as (M1 & M2).
  destruct ragged.
  - specialize (RS eq_refl). rewrite Forall_forall in RS.
    assert (Z1 : kb_shrink b = 0%Qc) by (apply RS; eapply nth_error_In; eauto).
    assert (Z2 : kb_shrink b' = 0%Qc) by (apply RS; eapply nth_error_In; eauto).
    rewrite Z1, Z2 in GE.
    destruct R as [A B|A].
    + exfalso. change (Qcltb ((Wk' - kb_incl_hyphen b + f) / kb_stretch b)%Qc (Q2Qc (inject_Z (-1))) = true) in O.
      apply Qcltb_lt in O. apply Qcleb_le in A. change (0 <= Wk' - kb_incl_hyphen b + f)%Qc in A.
      apply Qceqb_neq in B.
      (* the stretch is not negative *)
      assert (P : (0 < kb_stretch b)%Qc).
      { destruct (Qcle_lt_or_eq 0 (kb_stretch b)) as [?|E]; auto; [|symmetry in E; contradiction].
        destruct (nth_error_len bs 0) as (b0 & E0). { lia. }
        destruct (gr_first _ G _ E0) as (X & _). destruct (gr_mono _ G 0 (j - 1) b0 b ltac:(lia) E0 Hb) as (Y & _).
        eapply Qcle_trans; eauto. }
      apply Qc_div_lt in O; auto. clear -O A P. set (x := kb_stretch b) in *. set (y := kb_incl_hyphen b) in *. clearbody x y. qc.
    + destruct R' as [A' B'|A']; [|vm_compute; reflexivity].
      exfalso. apply Qcleb_nle in A. apply Qcleb_le in A'.
      change (0 <= Wk' - kb_incl_hyphen b' + f)%Qc in A'. change (Wk' - kb_incl_hyphen b + f < 0)%Qc in A.
      clear -A A' GE. set (x := kb_incl_hyphen b) in *. set (y := kb_incl_hyphen b') in *. clearbody x y. qc.
  - assert (SH : (0 < kb_shrink b - h /\ kb_shrink b - h < kb_incl_hyphen b - f - Wk')%Qc).
    { destruct R as [A B|A B|A B|A B C].
      - exfalso. change (Qcltb ((Wk' - (kb_incl_hyphen b - f)) / (kb_stretch b - g))%Qc (Q2Qc (inject_Z (-1))) = true) in O.
        apply Qcltb_lt in O, A. change (kb_incl_hyphen b - f < Wk')%Qc in A. apply Qceqb_neq in B. change (kb_stretch b - g <> 0)%Qc in B.
        assert (P : (0 < kb_stretch b - g)%Qc).
        { destruct (Qcle_lt_or_eq 0 (kb_stretch b - g)) as [?|E]; auto; [|symmetry in E; contradiction].
          clear -S2. set (x := kb_stretch b) in *. clearbody x. qc. }
        apply Qc_div_lt in O; auto. clear -O A P. set (x := kb_stretch b) in *. set (y := kb_incl_hyphen b) in *. clearbody x y. qc.
      - change (Qcltb ((Wk' - (kb_incl_hyphen b - f)) / (kb_shrink b - h))%Qc (Q2Qc (inject_Z (-1))) = true) in O.
        apply Qcltb_lt in O. apply Qcltb_nlt in A. change (Wk' <= kb_incl_hyphen b - f)%Qc in A. apply Qceqb_neq in B. change (kb_shrink b - h <> 0)%Qc in B.
        assert (P : (0 < kb_shrink b - h)%Qc).
        { destruct (Qcle_lt_or_eq 0 (kb_shrink b - h)) as [?|E]; auto; [|symmetry in E; contradiction].
          clear -S3. set (x := kb_shrink b) in *. clearbody x. qc. }
        split; auto.
        apply Qc_div_lt in O; auto. clear -O A P. set (x := kb_shrink b) in *. set (y := kb_incl_hyphen b) in *. clearbody x y. qc.
      - vm_compute in O. discriminate.
      - exfalso. change (Qcltb (Q2Qc (inject_Z 100) + (kb_incl_hyphen b - f) / Wk')%Qc (Q2Qc (inject_Z (-1))) = true) in O.
        apply Qcltb_lt in O. assert (X : ((kb_incl_hyphen b - f) / Wk' < Q2Qc (inject_Z (-101)))%Qc).
        { clear -O. set (x := ((kb_incl_hyphen b - f) / Wk')%Qc) in *. clearbody x. qc. }
        apply Qc_div_lt in X; auto. clear -X S1 Wk. set (y := kb_incl_hyphen b) in *. clearbody y. qc. }
    destruct SH as (P & Q).
    assert (P' : (0 < kb_shrink b' - h)%Qc).
    { clear -P M2. set (x := kb_shrink b) in *. set (y := kb_shrink b') in *. clearbody x y. qc. }
    assert (Q' : (kb_shrink b' - h < kb_incl_hyphen b' - f - Wk')%Qc).
    { clear -Q GE. set (x := kb_shrink b) in *. set (y := kb_shrink b') in *. set (u := kb_incl_hyphen b) in *. set (v := kb_incl_hyphen b') in *. clearbody x y u v. qc. }
    assert (NL : nltb (nsub (kb_incl_hyphen b') f) Wk' = false).
    { apply Qcltb_nlt. change (Wk' <= kb_incl_hyphen b' - f)%Qc. clear -P' Q'.
      set (y := kb_shrink b') in *. set (v := kb_incl_hyphen b') in *. clearbody y v. qc. }
    assert (NZ : neqb (nsub (kb_shrink b') h) n0 = false).
    { apply Qceqb_neq. intros E. change (kb_shrink b' - h = 0)%Qc in E. rewrite E in P'. apply (Qclt_not_eq _ _ P'). reflexivity. }
    destruct R' as [A B|A B|A B|A B C].
    + congruence.
    + change (Qcltb ((Wk' - (kb_incl_hyphen b' - f)) / (kb_shrink b' - h))%Qc (Q2Qc (inject_Z (-1))) = true).
      apply Qcltb_lt. apply Qc_div_lt; auto. clear -Q'.
      set (y := kb_shrink b') in *. set (v := kb_incl_hyphen b') in *. clearbody y v. qc.
    + rewrite NL in B. congruence.
    + rewrite NL in B. congruence.
Qed.
Print Assumptions C42_no_hyphens_stays.

(** In general optimality fails: here the whole text fits on one line, but the
    algorithm finds no breaks at all, because the first possible break, with
    its hyphen, is too far right.  (Text of width 9, column of width 10, a
    hyphenation point at 8 with a hyphen of 3.) *)
Definition kbz (m st sh sp hy : Z) (h : bool) : @kbox QcNum :=
  mkKBox (nZ m) (nZ st) (nZ sh) (nZ sp) (nZ hy) h false.
Definition ex_params : @params QcNum := mkParams (nZ 1000) (nZ 1000) (nZ 1000).
Definition ex_wide_hyphen : list (@kbox QcNum) := [kbz 8 3 0 8 11 true; kbz 9 3 0 9 9 false].
Theorem C42_optimal_refuted : exists (bs : list (@kbox QcNum)) (W : Qc), forall t,
  @optimum_fit QcNum (fun _ => W) t ex_params true bs = Err ENoFeasible
  /\ exists l total, @feasible QcNum bs (fun _ => W) t ex_params true l total.
Proof.
  exists ex_wide_hyphen, (nZ 10). intros t. split; [reflexivity|].
  exists [(2, n0)]. eexists. eapply br_last with (q := Q2Qc (1 # 3)) (c' := 1); cbn.
  - lia.
  - exists (kbz 9 3 0 9 9 false), n0, n0, n0. cbn. repeat split; auto.
    assert (E : Q2Qc (1 # 3) = @ndiv QcNum (@nadd QcNum (@nsub QcNum (nZ 10) (nZ 9)) n0) (nZ 3))
      by (apply Qc_is_canon; vm_compute; reflexivity).
    rewrite E. apply rr_fits; vm_compute; reflexivity.
  - vm_compute. reflexivity.
  - vm_compute. reflexivity.
  - split; vm_compute; reflexivity.
Qed.
Print Assumptions C42_optimal_refuted.

(** The theorems apply: three words of widths 4, 5 and 3 with spaces of 1 in a
    column of width 10; the breaks found are after the second word. *)
Definition ex_boxes : list (@kbox QcNum) :=
  [kbz 4 3 0 5 4 false; kbz 10 3 0 11 10 false; kbz 14 3 0 14 14 false].
Example C40_example :
  rmap (map (fun b => (br_pos b, this (br_adjust b), this (br_width b))))
    (@optimum_fit QcNum (fun _ => nZ 10) (TFin (nZ 2)) ex_params true ex_boxes)
  = Ok [(2, (0 # 1)%Q, (11 # 1)%Q); (3, (0 # 1)%Q, (3 # 1)%Q)].
Proof. vm_compute. reflexivity. Qed.
(** with a hyphenation point in the last word, justified: spaces shrink *)
Definition ex_boxes_j : list (@kbox QcNum) :=
  [kbz 4 0 0 7 4 false; kbz 10 3 2 13 10 false; kbz 15 6 4 15 17 true; kbz 17 6 4 17 17 false].
Example C41_example :
  rmap (map (fun b => (br_pos b, this (br_adjust b))))
    (@optimum_fit QcNum (fun k => if k =? 0 then nZ 9 else nZ 5) (TFin (nZ 2)) ex_params false ex_boxes_j)
  = Ok [(2, (-1 # 2)%Q); (4, (0 # 1)%Q)].
Proof. vm_compute. reflexivity. Qed.
Lemma ex_boxes_growing : growing ex_boxes.
Proof.
  Ltac idx i A := destruct i as [|[|[|i]]]; cbn in A; try (destruct i; discriminate);
    apply (f_equal (fun o => match o with Some x => x | None => kbz 0 0 0 0 0 false end)) in A; cbn in A; subst.
  constructor.
  - intros b [= <-]. split; vm_compute; discriminate.
  - intros i j a b H A B. idx i A; idx j B; try (exfalso; lia); split; vm_compute; discriminate.
  - intros i j a b H A B. idx i A; idx j B; try (exfalso; lia); vm_compute; discriminate.
  - intros j b B. idx j B; vm_compute; discriminate.
  - intros i j a b H A B _. idx i A; idx j B; try (exfalso; lia); vm_compute; discriminate.
Qed.
Example C42_example : @overfull_stays QcNum ex_boxes (fun _ => nZ 10) true.
Proof.
  apply C42_no_hyphens_stays; [exact ex_boxes_growing|reflexivity|]. intros _.
  repeat constructor; apply Qc_is_canon; reflexivity.
Qed.
