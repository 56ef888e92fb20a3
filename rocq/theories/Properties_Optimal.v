(** * Property C83: an optimal paragraph is the best breaking of its text.
    Specification: OptimalSpec (pieces, lines, ratios, allowed ways, demerits). *)
From Coq Require Import QArith Qcanon Qround Lqa String.
From Verif Require Import Base Gfmt FontSpec FontProofs Num Fonts State TextSpec StateProofs
  Words WordsSpec WordProofs WordOps Parse Render RenderSpec RenderProofs WordWidth Properties_Words LineSpec Firstfit FirstfitProofs FirstfitWidth Properties_Firstfit
  KnuthPlass KPSpec KPProofs Properties_KnuthPlass Optimum OptimumProofs OptimumWidth OptimumLines OptimumTotal Properties_Optimum
  OptimalProofs.
From Verif Require Import OptimalSpec.
Local Open Scope string_scope.
Local Open Scope list_scope.
Open Scope nat_scope.

(** ** C83.  The lines of a paragraph with optimal line breaks show the text, cut into
    lines in a way that is allowed at the first of the tolerances tried for which any
    way is; and no other way that is allowed has fewer demerits.  [width k] is the width
    of the column that the [k]-th line is in.  Missing: it needs lines that are too long
    to stay too long when extended (else it is false: C83_best_refuted). *)
Theorem C83_best_partial : forall (ENV : Env QcNum) fuel ws cols allow_empty (lead : Qc) avoid ragged (tolerance : Qc) P out,
  paragraph_words ws -> ws <> [] -> (0 < lead)%Qc -> (forall i, 0 < fst (cols i) /\ 0 <= snd (cols i))%Qc ->
  (ragged = true -> three_spaces ws <> 0%Qc) ->
  too_long_stays ragged (three_spaces ws) (fun i => fst (cols i)) (pieces ws) ->
  opt_shape fuel ws cols allow_empty lead avoid ragged tolerance P = Ok out ->
  exists width, placed cols out = combine (map width (seq 0 (List.length (concat out)))) (concat out)
  /\ (forall k, exists i, width k = fst (cols i))
  /\ exists n T best, tolerable tolerance n = Some T
     /\ concat best = pieces ws
     /\ allowed ragged (three_spaces ws) width T best
     /\ Forall2 (fun ln l => measured_all (ol_words l) = measured_all (shown ln)) best (concat out)
     /\ (forall other, concat other = pieces ws -> allowed ragged (three_spaces ws) width T other ->
         (demerits ragged (three_spaces ws) width P best <= demerits ragged (three_spaces ws) width P other)%Qc)
     /\ (forall n' T' other, n' < n -> tolerable tolerance n' = Some T' ->
         concat other = pieces ws -> ~ allowed ragged (three_spaces ws) width T' other).
Proof.
  intros ENV fuel ws cols ae lead av ragged tolerance P out PW NE LP CP TS TL E.
  assert (FL := pw_flat _ PW). assert (OK := pw_ok _ PW). assert (FU := pw_full _ PW).
  destruct (roomy_cols cols lead LP (fun i => proj2 (CP i))) as (RM & _).
  apply opt_shape_spec in E as (frags & boxes & E & [(-> & _)|(d & q & groups & D & -> & Q & L)]); [| |exact RM].
  { exfalso. destruct (into_boxes_good _ _ _ _ FL E) as (_ & _ & _ & X & _). apply X; auto. }
  apply into_sums in E as (full & wd' & st' & sh' & -> & -> & WB & SU); [|exact OK|exact FL].
  pose proof (words_matches _ ws OK FL FU _ _ _ _ WB) as MA.
  destruct L as (ls & L1 & L2).
  assert (WQ : forall k, exists i, line_length q k = fst (cols i)).
  { intros k. unfold line_length. destruct Q as (_ & Q & _). rewrite Q. eauto. }
  destruct (per_column_spec ls q (proj1 Q)) as (gs & E3 & E4 & E5 & _). rewrite L2 in E3. inversion E3; subst gs.
  assert (CO : concat (repeat [] d ++ groups) = ls).
  { rewrite concat_app, E4. assert (Z : concat (repeat (@nil (@oline QcNum)) d) = []) by (clear; induction d; cbn; auto). rewrite Z. reflexivity. }
  exists (line_length q). rewrite CO. split; [|split; [exact WQ|]].
  - rewrite placed_repeat. rewrite <- (placed_ext (q_cols q)) by (apply Q). rewrite <- E5, <- E4.
    transitivity (combine (map fst (placed (q_cols q) groups)) (map snd (placed (q_cols q) groups))); [|rewrite placed_lines; reflexivity].
    clear. induction (placed (q_cols q) groups) as [|[w x] l IH]; cbn; auto. f_equal. exact IH.
  - eapply (lay_best full (pieces ws) q ragged (three_spaces ws) _ wd' st' sh' tolerance P ls SU).
    + destruct ragged; [|reflexivity]. split; [apply TS; reflexivity|].
      destruct ws as [|w ws']; [congruence|]. cbn [negb first_stretch three_spaces].
      change (st_size (wl_state w) * (spacewidth (st_font (wl_state w)) / Q2Qc 1000) * Q2Qc 3 = Q2Qc 3 * (st_size (wl_state w) * (spacewidth (st_font (wl_state w)) / Q2Qc 1000)))%Qc.
      apply Qcmult_comm.
    + exact MA.
    + intros _ k Z. destruct (WQ k) as (i & Wi). rewrite Wi in Z. destruct (CP i) as (C & _). rewrite Z in C. apply (Qclt_not_eq _ _ C). reflexivity.
    + intros k a l m c EP NL LT. destruct (WQ k) as (i & Wi). rewrite Wi in *. eapply (TL i); eauto.
    + exact L1.
Qed.
Print Assumptions C83_best_partial.

(** *** When lines that are too long stay too long *)
Section Grows.
Context {ENV : Env QcNum}.
Open Scope Qc_scope.
Let sp3 (l : list piece) : Qc := spaces l * Q2Qc (1 # 3).
Lemma advance_nonneg l : Forall (fun p => 0 <= pc_space p /\ 0 <= wl_advance (pc_in p) /\ 0 <= all_advance (pc_end p)) l ->
  0 <= all_advance (map pc_in l) /\ 0 <= fold_right (fun p a => pc_space p + a) 0 l.
Proof.
  induction 1 as [|p l (A & B & _) _ (I1 & I2)]; [split; apply Qcle_refl|]. cbn [map fold_right]. unfold all_advance in *. cbn [fold_right].
  split; (rewrite <- (Qcplus_0_r 0); apply Qcplus_le_compat; assumption).
Qed.
Lemma grows_step pcs a i p x c : grows pcs -> pcs = a ++ i ++ p :: x :: c ->
  all_advance (shown (i ++ [p])) - sp3 (i ++ [p]) <= all_advance (shown (i ++ [p; x])) - sp3 (i ++ [p; x])
  /\ spaces (i ++ [p]) <= spaces (i ++ [p; x]) /\ 0 <= spaces (i ++ [p]) /\ 0 <= all_advance (shown (i ++ [p])).
Proof.
  intros (G1 & G2) E. specialize (G2 (a ++ i) p x c). rewrite <- app_assoc in G2. specialize (G2 E).
  rewrite E in G1. apply Forall_app in G1 as (_ & G1). apply Forall_app in G1 as (Gi & Gp). inversion Gp as [|? ? (P1 & P2 & P3) _]; subst.
  destruct (advance_nonneg i Gi) as (N1 & N2).
  replace (i ++ [p; x]) with ((i ++ [p]) ++ [x]) by (rewrite <- app_assoc; reflexivity).
  unfold sp3, spaces. rewrite !removelast_last, !shown_snoc, !all_advance_app, map_app, all_advance_app, fold_right_app. cbn [map fold_right].
  rewrite all_advance_one.
  assert (FS : forall z l, fold_right (fun p a => pc_space p + a) z l = fold_right (fun p a => pc_space p + a) 0 l + z).
  { clear. intros z l. induction l as [|y l IH]; cbn; [ring|]. rewrite IH. ring. }
  rewrite (FS (pc_space p + 0)). set (s := fold_right _ 0 i) in *. set (n := all_advance (map pc_in i)) in *.
  set (u := all_advance (pc_end p)) in *. set (v := wl_advance (pc_in p)) in *. set (w := all_advance (pc_end x)) in *. set (g := pc_space p) in *.
  clearbody s n u v w g. clear -G2 N1 N2 P1 P2 P3. repeat split.
  - qc.
  - qc.
  - exact N2.
  - rewrite <- (Qcplus_0_r 0). apply Qcplus_le_compat; assumption.
Qed.
Lemma grows_more pcs : grows pcs -> forall m a l c, pcs = a ++ l ++ m ++ c -> l <> [] ->
  all_advance (shown l) - sp3 l <= all_advance (shown (l ++ m)) - sp3 (l ++ m) /\ spaces l <= spaces (l ++ m).
Proof.
  intros G. induction m as [|x m IH]; intros a l c E NE.
  - rewrite app_nil_r. split; apply Qcle_refl.
  - destruct (@exists_last _ l NE) as (i & p & ->). rewrite <- app_assoc in E. cbn [app] in E.
    destruct (grows_step pcs a i p x (m ++ c) G E) as (S1 & S2 & _).
    destruct (IH a (i ++ [p; x]) c) as (I1 & I2); [rewrite E, <- app_assoc; reflexivity|destruct i; discriminate|].
    replace ((i ++ [p]) ++ x :: m) with ((i ++ [p; x]) ++ m) by (rewrite <- !app_assoc; reflexivity).
    split; eapply Qcle_trans; eauto.
Qed.
Lemma line_nonneg pcs a l c : grows pcs -> pcs = a ++ l ++ c -> l <> [] -> 0 <= spaces l /\ 0 <= all_advance (shown l).
Proof.
  intros (G & _) E NE. destruct (@exists_last _ l NE) as (i & p & ->). rewrite E in G. apply Forall_app in G as (_ & G). apply Forall_app in G as (G & _).
  apply Forall_app in G as (Gi & Gp). inversion Gp as [|? ? (P1 & P2 & P3) _]; subst. destruct (advance_nonneg i Gi) as (N1 & N2).
  unfold spaces. rewrite removelast_last, shown_snoc, all_advance_app. split; [exact N2|].
  rewrite <- (Qcplus_0_r 0). apply Qcplus_le_compat; assumption.
Qed.
End Grows.
Theorem C83_grows_stays : forall (ENV : Env QcNum) ragged (three : Qc) (width : nat -> Qc) pcs,
  grows pcs -> (ragged = true -> 0 < three)%Qc -> (forall k, 0 < width k)%Qc ->
  too_long_stays ragged three width pcs.
Proof.
  intros ENV ragged three width pcs G T W k a l m c E NE. specialize (W k). set (w := width k) in *. clearbody w.
  destruct (grows_more pcs G m a l c E NE) as (S1 & S2).
  destruct (line_nonneg pcs a l (m ++ c) G E NE) as (N1 & N2).
  assert (E' : pcs = a ++ (l ++ m) ++ c) by (rewrite E, <- app_assoc; reflexivity).
  assert (NE' : l ++ m <> []) by (destruct l; [congruence|discriminate]).
  destruct (line_nonneg pcs a (l ++ m) c G E' NE') as (N1' & N2').
  unfold ratio. cbn zeta. set (n := all_advance (shown l)) in *. set (n' := all_advance (shown (l ++ m))) in *.
  set (s := spaces l) in *. set (s' := spaces (l ++ m)) in *. clearbody n n' s s'. clear -T W S1 S2 N1 N2 N1' N2'.
  assert (H3 : (0 < Q2Qc (1 # 3))%Qc) by reflexivity. assert (H2 : (0 < Q2Qc (1 # 2))%Qc) by reflexivity.
  assert (POS : forall x y : Qc, (0 <= x -> x <> 0 -> 0 < y -> 0 < x * y)%Qc).
  { intros x y X NX Y. destruct (Qcle_lt_or_eq _ _ X) as [P|P]; [|congruence].
    rewrite <- (Qcmult_0_l y). apply Qcmult_lt_compat_r; assumption. }
  destruct ragged.
  - destruct (Qcleb n w) eqn:L.
    + apply Qcleb_le in L. intros H. exfalso. apply Qc_div_lt in H; [|apply T; reflexivity]. specialize (T eq_refl).
      clear -H L T. assert (0 <= w - n)%Qc by qc. assert (Q2Qc (-1) * three < 0)%Qc by qc. qc.
    + apply Qcleb_nle in L. intros _. assert (L' : (w < n')%Qc) by qc. apply Qcleb_nle in L'. rewrite L'. reflexivity.
  - destruct (Qceqb s 0) eqn:ES.
    + destruct (Qceqb n w) eqn:EN; [intros H; discriminate H|].
      intros H. exfalso. assert (X : (0 <= n / w)%Qc). { apply Qc_div_nonneg; assumption. } set (z := (n / w)%Qc) in *. clearbody z. clear -H X. qc.
    + apply Qceqb_neq in ES. assert (ES' : s' <> 0%Qc). { intros Z. subst s'. apply ES. apply Qcle_antisym; assumption. }
      destruct (Qcltb n w) eqn:L.
      * apply Qcltb_lt in L. intros H. exfalso. apply Qc_div_lt in H; [|apply POS; assumption]. pose proof (POS _ _ N1 ES H2) as P2.
        set (z := (s * Q2Qc (1 # 2))%Qc) in *. clearbody z. clear -H L P2. qc.
      * apply Qcltb_nlt in L. intros H. apply Qc_div_lt in H; [|apply POS; assumption].
        assert (L' : (w <= n')%Qc). { clear -S1 S2 L H. qc. }
        destruct (Qceqb s' 0) eqn:Z; [apply Qceqb_eq in Z; contradiction|]. apply Qcltb_nlt in L'. rewrite L'. apply Qc_div_lt; [apply POS; assumption|].
        clear -S1 S2 H. qc.
Qed.
Print Assumptions C83_grows_stays.

(** The hypotheses are met: "aBcDe fgHi jk" (each character 5 wide, hyphens at the
    capitals) in columns 40 wide, 20 high. *)
Fixpoint adjacent {A} (f : A -> A -> bool) (l : list A) : bool :=
  match l with x :: ((y :: _) as r) => f x y && adjacent f r | _ => true end.
Lemma adjacent_ok {A} (f : A -> A -> bool) l : adjacent f l = true -> forall a p p' c, l = a ++ p :: p' :: c -> f p p' = true.
Proof.
  intros H a. revert l H. induction a as [|x a IH]; intros l H p p' c ->; cbn [app] in H.
  - cbn in H. apply andb_true_iff in H. apply H.
  - eapply (IH (a ++ p :: p' :: c)); [|reflexivity]. destruct a; cbn in H |- *; apply andb_true_iff in H; apply H.
Qed.
#[local] Existing Instance ex_words.
Lemma ex_grows : grows (pieces ex_par).
Proof.
  split.
  - assert (B : forallb (fun p => Qcleb 0 (pc_space p) && Qcleb 0 (wl_advance (pc_in p)) && Qcleb 0 (all_advance (pc_end p))) (pieces ex_par) = true) by (vm_compute; reflexivity).
    rewrite forallb_forall in B. apply Forall_forall. intros p I. apply B in I. rewrite !andb_true_iff in I. destruct I as ((I1 & I2) & I3).
    repeat split; apply Qcleb_le; assumption.
  - assert (B : adjacent (fun p p' => Qcleb (all_advance (pc_end p) + pc_space p * Q2Qc (1 # 3)) (wl_advance (pc_in p) + all_advance (pc_end p'))) (pieces ex_par) = true) by (vm_compute; reflexivity).
    intros a p p' c E. apply Qcleb_le. exact (adjacent_ok _ _ B a p p' c E).
Qed.
Definition ex_best (ragged : bool) := opt_shape 50 ex_par (ex_cols 40 20) false (nZ 10) true ragged (nZ 1) ex_params.
(** some of the other ways to cut it *)
Definition ex_pieces_at (ns : list nat) : list (list piece) :=
  (fix go ns l := match ns with [] => [l] | n :: r => firstn n l :: go r (skipn n l) end) ns (pieces ex_par).
Example C83_example : paragraph_words ex_par /\ ex_par <> [] /\ Qcltb 0 (three_spaces ex_par) = true
  /\ (forall ragged, too_long_stays ragged (three_spaces ex_par) (fun i => fst (ex_cols 40 20 i)) (pieces ex_par))
  /\ oshow (ex_best true) = Ok [[str_of "aBcDe"; str_of "fgHi jk"]]
  /\ oshow (ex_best false) = Ok [[str_of "a-"; str_of "BcDe fg-"]; [str_of "Hi jk"]]
  /\ map (fun w => map (fun ln => map fst (measured_all (shown ln))) (ex_pieces_at w)) [[3]; [1; 3]; [3; 2]]%nat
     = [[str_of "aBcDe"; str_of "fgHi jk"]; [str_of "a-"; str_of "BcDe fg-"; str_of "Hi jk"]; [str_of "aBcDe"; str_of "fgHi"; str_of "jk"]]
  /\ map (fun w => this (demerits true (three_spaces ex_par) (fun _ => Q2Qc 40) ex_params (ex_pieces_at w))) [[3]; [1; 3]; [3; 2]]%nat
     = [10202; 4248603; 49472587 # 729]%Q.
Proof.
  split; [apply ex_facts|]. split; [apply ex_facts|]. split; [vm_compute; reflexivity|]. split.
  - intros ragged. apply C83_grows_stays; [exact ex_grows|intros _; vm_compute; reflexivity|]. intros k. vm_compute. reflexivity.
  - split; [vm_compute; reflexivity|]. split; [vm_compute; reflexivity|]. split; vm_compute; reflexivity.
Qed.

(** In general it is false: "abI" fits on one line 13 wide if "I" is 2 wide, but "ab-"
    does not (characters 5 wide), and the paragraph is given up. *)
Definition narrow_words : Env QcNum := {|
  charwidth := fun _ c => if (c =? 73)%N then nZ 200 else nZ 500;
  kerntab := @kerntab QcNum ex_words; hyphenator := @hyphenator QcNum ex_words; is_wordchar := @is_wordchar QcNum ex_words |}.
Theorem C83_best_refuted : exists (ENV : Env QcNum) ws cols (lead : Qc) (tolerance : Qc) P,
  paragraph_words ws /\ ws <> [] /\ (0 < lead)%Qc /\ (forall i, 0 < fst (cols i) /\ 0 <= snd (cols i))%Qc /\ three_spaces ws <> 0%Qc
  /\ (forall fuel, opt_shape fuel ws cols false lead true true tolerance P = Err ERuntime)
  /\ (forall t, allowed true (three_spaces ws) (fun k => fst (cols k)) t [pieces ws]).
Proof.
  set (ws := match @into_words QcNum narrow_words [(NoOp, str_of "abI")] ex_state with Ok (_, ws, _) => ws | Err _ => [] end).
  exists narrow_words, ws, (ex_cols 13 100), (Q2Qc 10), 1%Qc, ex_params. split; [|split; [|split; [|split; [|split; [|split]]]]].
  - unfold ws. destruct (@into_words QcNum narrow_words [(NoOp, str_of "abI")] ex_state) as [[[c w] e]|e] eqn:E.
    + eapply pw_parsed. exact E.
    + exfalso. revert E. vm_compute. discriminate.
  - intros Z. apply (f_equal (@List.length _)) in Z. revert Z. vm_compute. discriminate.
  - reflexivity.
  - intros i. split; vm_compute; congruence.
  - apply Qceqb_neq. vm_compute. reflexivity.
  - intros fuel. assert (B : @opt_shape QcNum narrow_words 0 ws (ex_cols 13 100) false (Q2Qc 10) true true 1%Qc ex_params = Err ERuntime) by (vm_compute; reflexivity).
    destruct fuel; vm_compute; reflexivity.
  - intros t. unfold allowed. cbn [allowed_from]. split.
    + intros Z. apply (f_equal (@List.length _)) in Z. revert Z. vm_compute. discriminate.
    + apply Qcltb_lt. vm_compute. reflexivity.
Qed.
Print Assumptions C83_best_refuted.
