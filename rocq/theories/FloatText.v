(** * FloatText: words made from text, measured in doubles; their first-fit lines. *)
From Coq Require Import ZArith Bool Reals.
From Flocq Require Import Core IEEE754.BinarySingleNaN.
From Verif Require Import Base Num Float64 FloatProofs NumInstances RoundErr Fonts State TextSpec StateProofs
  Words WordsSpec WordProofs WordOps Parse Firstfit FirstfitProofs LineSpec Common FontsUsed Layout LayoutTotal FloatLines FloatWidths.
From Coq Require Import Lra Lia.
Open Scope R_scope.

(** ** the final spaces of new words *)
Section Tails.
Context {NUM : Num} {ENV : Env NUM}.
Definition fresh_end (w : word) : Prop := forall t, w_tail w = Some t -> exists prev, t = tspace_new (w_state w) prev.
Fixpoint fresh_tail (w : wordlike) : Prop :=
  match w with WBox _ => True | WWord w => fresh_end w | WCmd w _ => fresh_tail w end.
Lemma word_new_end s st prev w : word_new s st prev = Ok w -> fresh_end w.
Proof.
  unfold word_new. destruct (tspace_parse s st prev) as [s' t] eqn:T. intros E. apply bind_ok in E as (parts & _ & E).
  apply bind_ok in E as (bl & _ & E). apply Ok_inj in E. subst w. intros t0 H. cbn [w_tail w_state] in *. subst t.
  unfold tspace_parse in T. destruct s as [|c s]; [discriminate|]. destruct (_ =? _)%N; [|discriminate]. injection T as _ <-. eauto.
Qed.
Lemma simple_words_end fuel : forall t st prev ws x, simple_words fuel t st prev = Ok (ws, x) ->
  Forall fresh_end ws /\ match x with inr w => fresh_end w | inl _ => True end.
Proof.
  induction fuel as [|fuel IH]; intros t st prev ws x; cbn [simple_words]; [discriminate|]. destruct (split_word t) as [[w r]|].
  2:{ intros E. apply Ok_inj in E. injection E as <- <-. split; [constructor|exact Logic.I]. }
  intros E. apply bind_ok in E as (y & Y & E). apply word_new_end in Y. destruct r.
  - apply Ok_inj in E. injection E as <- <-. split; [constructor|exact Y].
  - apply bind_ok in E as ([ws' x'] & Z & E). apply IH in Z as [A B]. apply Ok_inj in E. injection E as <- <-. split; [constructor; assumption|exact B].
Qed.
Lemma complete_word_end it head st w next : complete_word it head st = Ok (w, next) -> fresh_end w.
Proof.
  unfold complete_word. destruct (take_parts it) as [parts nx]. destruct parts as [|p parts].
  - intros E. apply bind_ok in E as (y & Y & E). apply Ok_inj in E. injection E as <- <-. eapply word_new_end; eauto.
  - destruct (segments _ _ _ _ _) as [[segs prev] st']. intros E. apply Ok_inj in E. injection E as <- <-.
    intros t H. cbn [w_tail w_state] in *. destruct (match nx with Some _ => _ | None => false end); [|discriminate]. injection H as <-. eauto.
Qed.
Lemma parse_loop_end fuel : forall it st txt x, parse_loop fuel it st txt = Ok x -> Forall fresh_tail (fst x).
Proof.
  induction fuel as [|fuel IH]; intros it st txt x; cbn [parse_loop]; [discriminate|]. destruct txt as [|c txt]; [intros E; apply Ok_inj in E; subst; constructor|].
  intros E. apply bind_ok in E as ([ws lst] & S & E). apply simple_words_end in S as [S1 S2].
  assert (S3 : Forall fresh_tail (map WWord ws)) by (apply Forall_map; exact S1). clear S1.
  assert (FIN : forall w st it x, fresh_end w ->
    match it with
    | [] => Ok (map WWord ws ++ [WWord w], true)
    | (cmd, t) :: it' => do y <- parse_loop fuel it' (apply cmd st) t; Ok (map WWord ws ++ with_cmd (WWord w) cmd :: fst y, snd y)
    end = Ok x -> Forall fresh_tail (fst x)).
  { clear E x. intros w st0 it0 x C E. destruct it0 as [|[cmd t] it0].
    - apply Ok_inj in E. subst x. apply Forall_app. split; [exact S3|]. constructor; [exact C|constructor].
    - apply bind_ok in E as (y & Y & E). apply IH in Y. apply Ok_inj in E. subst x. cbn [fst]. apply Forall_app. split; [exact S3|].
      constructor; [|exact Y]. destruct cmd; exact C. }
  destruct lst as [head|w].
  - apply bind_ok in E as ([w next] & CW & E). apply complete_word_end in CW.
    destruct next as [[r it']|].
    + destruct r as [|c' r].
      * eapply FIN; [exact CW|exact E].
      * apply bind_ok in E as (z & Z & E). apply IH in Z. apply Ok_inj in E. subst x. cbn [fst]. apply Forall_app. split; [exact S3|]. constructor; assumption.
    + apply Ok_inj in E. subst x. apply Forall_app. split; [exact S3|]. constructor; [exact CW|constructor].
  - eapply FIN; [exact S2|exact E].
Qed.
Lemma into_words_end ps st cmd ws ex : into_words ps st = Ok (cmd, ws, ex) -> Forall fresh_tail ws.
Proof.
  unfold into_words. destruct (fold_commands ps st []) as [[c x] st']. destruct x as [[t it]|].
  - intros E. apply bind_ok in E as (y & Y & E). apply Ok_inj in E. injection E as <- <- <-. eapply parse_loop_end; eauto.
  - intros E. apply Ok_inj in E. injection E as <- <- <-. constructor.
Qed.
(** the number of characters of a fragment; style changes count too *)
Definition segs_len (l : list (slug * command)) : nat := list_sum (map (fun p => List.length (sl_txt (fst p)) + 1)%nat l).
Definition box_len (b : box) : nat := match b with BSlug s => List.length (sl_txt s) | BMixed l _ => segs_len l end.
End Tails.

Section Text.
Context (pow : b64 -> nat -> b64) {ENV : Env (Float64 pow)}.
#[local] Hint Extern 0 Num => exact (Float64 pow) : typeclass_instances.
Context (M Smax : R) (g k : Z) (n : nat).
Hypothesis SG : sane g.
Hypothesis SK : sane k.
Hypothesis WID : forall f c, fin (charwidth f c) /\ Rabs (val (charwidth f c)) <= M.
Hypothesis KER : forall f a b, fin (charkern f a b) /\ Rabs (val (charkern f a b)) <= M.
Hypothesis M0 : 2004 * ulp2 g <= M.
Hypothesis N1 : (1 <= n)%nat.
Hypothesis CG : INR (2 * n + 8) * (M + ulp2 g) <= cap g.
Hypothesis CK1 : 4 * (M * Smax) <= cap k.
Hypothesis CK2 : INR (12 * n + 60) * (M * Smax / 1000 + delta Smax g k) <= cap k.
Notation delta := (delta Smax g k).
Notation near := (near pow M Smax g k).
Notation okst := (okst pow Smax).
Notation kern_small := (kern_small pow M).
Definition e_box : R := INR (11 * n + 30) * delta.
Definition B_box : R := INR (2 * n + 4) * (M * Smax / 1000).
Definition gslug (s : slug) : Prop :=
  (List.length (sl_txt s) <= n)%nat /\ near (2 * List.length (sl_txt s) + (if slug_has_init_kern s then 7 else 10)) s.
Definition gbox (b : box) : Prop :=
  (box_len b <= n)%nat /\ match b with BSlug s => gslug s | BMixed l st => Forall (fun p => gslug (fst p)) l /\ okst st end.
Definition gspace (t : tspace * state) : Prop :=
  okst (snd t) /\ ts_width (fst t) = nmul (ndiv (spacewidth (st_font (snd t))) n1000) (st_size (snd t))
  /\ ts_size (fst t) = st_size (snd t) /\ fin (ts_kern (fst t)) /\ Rabs (val (ts_kern (fst t))) <= 2 * M.

Lemma near_weak c c' s : (c <= c')%nat -> near c s -> near c' s.
Proof.
  intros H (A & O & R). split; [|split; assumption]. eapply close_weak; [|exact A].
  destruct (okst_delta pow M Smax g k M0 _ O) as (_ & _ & _ & _ & D & _). apply Rmult_le_compat_r; [lra|apply le_INR, H].
Qed.
Lemma near_10 s : gslug s -> near (2 * List.length (sl_txt s) + 10) s.
Proof. intros (_ & H). eapply near_weak; [|exact H]. destruct (slug_has_init_kern s); lia. Qed.
Lemma segs_near l m : 0 < Smax -> Forall (fun p => gslug (fst p)) l -> (segs_len l <= m)%nat -> (m <= n + 2)%nat ->
  close (nsum (map (fun p : slug * command => sl_width (fst p)) l)) (Rsum (map (fun p => slug_true pow (fst p)) l)) (INR (11 * m) * delta)
  /\ Rabs (Rsum (map (fun p => slug_true pow (fst p)) l)) <= INR (2 * m) * (M * Smax / 1000).
Proof.
  intros S0 G L MN. assert (P := M_pos M g M0). assert (U := ulp2_pos g). assert (V := ulp2_pos k).
  assert (D1 : 0 < ulp2 g * Smax) by (apply Rmult_lt_0_compat; lra). assert (D2 : 0 < M * Smax) by (apply Rmult_lt_0_compat; lra).
  assert (DP : 0 < delta) by (unfold FloatWidths.delta; lra). assert (DU : ulp2 k <= delta) by (unfold FloatWidths.delta; lra).
  set (rs := map (fun p : slug * command => (slug_true pow (fst p), INR (2 * List.length (sl_txt (fst p)) + 10) * delta)) l).
  assert (F2 : Forall2 (fun x r => close x (fst r) (snd r)) (map (fun p : slug * command => sl_width (fst p)) l) rs).
  { subst rs. clear L. induction G as [|p l H _ IH]; cbn [map]; constructor; [|exact IH]. cbn [fst snd]. apply near_10 in H. apply H. }
  assert (R1 : map fst rs = map (fun p => slug_true pow (fst p)) l) by (subst rs; rewrite map_map; reflexivity).
  assert (R2 : Rsum (map snd rs) + INR (List.length l) * ulp2 k <= INR (11 * segs_len l) * delta).
  { subst rs. clear -DP DU. induction l as [|p l IH]; cbn [map Rsum List.length segs_len list_sum fold_right snd]; [cbn; lra|].
    fold (list_sum (map (fun p : slug * command => (List.length (sl_txt (fst p)) + 1)%nat) l)). fold (segs_len l). rewrite S_INR.
    replace (11 * (List.length (sl_txt (fst p)) + 1 + segs_len l))%nat with (11 * (List.length (sl_txt (fst p)) + 1) + 11 * segs_len l)%nat by lia.
    rewrite (plus_INR (11 * _)), Rmult_plus_distr_r.
    assert (X : INR (2 * List.length (sl_txt (fst p)) + 10) * delta + delta <= INR (11 * (List.length (sl_txt (fst p)) + 1)) * delta).
    { rewrite <- (Rmult_1_l delta) at 2. rewrite <- Rmult_plus_distr_r. apply Rmult_le_compat_r; [lra|]. change 1 with (INR 1). rewrite <- plus_INR. apply le_INR. lia. }
    lra. }
  assert (R3 : Rsum (map (fun r => Rabs (fst r)) rs) <= INR (2 * segs_len l) * (M * Smax / 1000)).
  { subst rs. clear L F2 R1 R2. induction G as [|p l H _ IH]; cbn [map Rsum segs_len list_sum fold_right fst]; [cbn; lra|].
    fold (list_sum (map (fun p : slug * command => (List.length (sl_txt (fst p)) + 1)%nat) l)). fold (segs_len l).
    rewrite Nat.mul_add_distr_l, plus_INR, Rmult_plus_distr_r. apply Rplus_le_compat; [|exact IH].
    destruct H as (_ & _ & O & K & KL & _). eapply Rle_trans; [apply (slug_true_small pow M Smax g k WID M0); assumption|].
    apply Rmult_le_compat_r; [lra|]. apply le_INR. lia. }
  assert (R4 : INR (2 * segs_len l) * (M * Smax / 1000) <= INR (2 * m) * (M * Smax / 1000)) by (apply Rmult_le_compat_r; [lra|apply le_INR; lia]).
  assert (R5 : INR (11 * segs_len l) * delta <= INR (11 * m) * delta) by (apply Rmult_le_compat_r; [lra|apply le_INR; lia]).
  assert (R6 := cap_n M Smax g k n M0 CK2 (2 * m) (11 * m) S0 ltac:(lia) ltac:(lia)).
  rewrite <- R1. split.
  - replace (Rsum (map fst rs)) with (0 + Rsum (map fst rs)) by ring. eapply close_weak; [|unfold nsum; apply (sum_each k pow _ rs SK F2)].
    + rewrite Rplus_0_l, map_length. lra.
    + subst rs. apply Forall_forall. intros r I. apply in_map_iff in I as (p & <- & _). cbn [snd]. apply Rmult_le_pos; [apply pos_INR|lra].
    + apply zero_close.
    + lra.
    + rewrite Rabs_R0, map_length. lra.
  - eapply Rle_trans; [apply Rsum_abs|]. rewrite map_map. lra.
Qed.
Lemma gbox_pos b : gbox b -> 0 < Smax.
Proof.
  intros (_ & H). assert (X : exists st, okst st) by (destruct b as [s|l st]; [exists (sl_state s); apply H|exists st; apply H]).
  destruct X as (st & O). apply (okst_delta pow M Smax g k M0 st O).
Qed.
Lemma facts : 0 < Smax -> 0 < delta /\ 0 < M * Smax.
Proof.
  intros S0. assert (P := M_pos M g M0). assert (U := ulp2_pos g). assert (V := ulp2_pos k).
  assert (D1 : 0 < ulp2 g * Smax) by (apply Rmult_lt_0_compat; lra). split; [unfold FloatWidths.delta; lra|apply Rmult_lt_0_compat; lra].
Qed.
Lemma e_weak x r c : 0 < Smax -> (c <= 11 * n + 30)%nat -> close x r (INR c * delta) -> close x r e_box.
Proof. intros S0 H. destruct (facts S0). apply close_weak. unfold e_box. apply Rmult_le_compat_r; [lra|apply le_INR, H]. Qed.
Lemma b_weak r c : 0 < Smax -> (c <= 2 * n + 4)%nat -> Rabs r <= INR c * (M * Smax / 1000) -> Rabs r <= B_box.
Proof. intros S0 H A. destruct (facts S0). eapply Rle_trans; [exact A|]. unfold B_box. apply Rmult_le_compat_r; [lra|apply le_INR, H]. Qed.
Lemma gbox_width b : gbox b -> close (box_width b) (box_true pow b) e_box /\ Rabs (box_true pow b) <= B_box.
Proof.
  intros H. assert (S0 := gbox_pos b H). destruct H as (L & H). destruct b as [s|l st]; cbn [box_len box_width box_true] in *.
  - assert (N := near_10 s H). destruct N as (W & O & K & KL & _). split.
    + eapply e_weak; [exact S0| |exact W]. lia.
    + eapply b_weak; [exact S0| |apply (slug_true_small pow M Smax g k WID M0); assumption]. lia.
  - destruct (segs_near l n S0 (proj1 H) L ltac:(lia)) as (A & B). split; [eapply e_weak; [exact S0| |exact A]; lia|eapply b_weak; [exact S0| |exact B]; lia].
Qed.
Lemma gslug_new t st prev : okst st -> (List.length t <= n)%nat -> gslug (slug_new t st prev).
Proof.
  intros O L. split; [exact L|]. cbn [slug_new sl_txt]. eapply near_weak; [|apply (new_near pow M Smax g k n SG SK WID KER M0 CG CK2 t st prev O L)].
  destruct (slug_has_init_kern _); lia.
Qed.
Lemma gbox_hyphen b : gbox b -> close (box_width (box_with_hyphen b)) (box_true pow (box_with_hyphen b)) e_box /\ Rabs (box_true pow (box_with_hyphen b)) <= B_box.
Proof.
  intros H. assert (S0 := gbox_pos b H). destruct H as (L & H). destruct b as [s|l st]; cbn [box_len box_with_hyphen box_width box_true] in *.
  - assert (N := near_10 s H). destruct (hyphen_near pow M Smax g k n SG SK WID KER M0 CG CK1 CK2 _ s N L ltac:(lia)) as (A & B).
    split; [eapply e_weak; [exact S0| |exact A]; lia|eapply b_weak; [exact S0| |exact B]; lia].
  - destruct H as (H & O).
    assert (G' : Forall (fun p => gslug (fst p)) (l ++ [(slug_new [hyphen_char] st (Some (segs_last l)), NoOp)])).
    { apply Forall_app. split; [exact H|]. constructor; [|constructor]. apply gslug_new; [exact O|cbn; lia]. }
    assert (L' : (segs_len (l ++ [(slug_new [hyphen_char] st (Some (segs_last l)), NoOp)]) <= n + 2)%nat).
    { unfold segs_len in *. rewrite map_app, list_sum_app. cbn. lia. }
    destruct (segs_near _ (n + 2) S0 G' L' ltac:(lia)) as (A & B).
    split; [eapply e_weak; [exact S0| |exact A]; lia|eapply b_weak; [exact S0| |exact B]; lia].
Qed.
Lemma gslug_unkern s : gslug s -> gslug (slug_without_init_kern s) /\ sl_txt (slug_without_init_kern s) = sl_txt s.
Proof.
  intros (L & H). destruct (unkern_near pow M Smax g k n SK WID M0 CK1 CK2 _ s H L) as (A & B & C); [destruct (slug_has_init_kern s); lia|].
  split; [|exact C]. split; rewrite ?C; [exact L|]. rewrite B. eapply near_weak; [|exact A]. destruct (slug_has_init_kern s); lia.
Qed.
Lemma gbox_unkern b : gbox b -> gbox (box_without_init_kern b) /\ B_box <= B_box.
Proof.
  intros (L & H). split; [|lra]. destruct b as [s|[|[s c] l] st]; cbn [box_without_init_kern] in *.
  - destruct (gslug_unkern s H) as (A & B). split; [cbn in *; rewrite B; exact L|exact A].
  - split; [exact L|exact H].
  - destruct H as (H & O). inversion H as [|? ? H1 H2]; subst. cbn [fst] in H1. destruct (gslug_unkern s H1) as (A & B).
    split; [cbn in *; rewrite B; exact L|]. split; [constructor; [exact A|exact H2]|exact O].
Qed.
Lemma gspace_width t : gspace t -> close (tspace_width (fst t)) (space_true pow t) e_box /\ Rabs (space_true pow t) <= B_box.
Proof.
  intros (O & TW & TS & TK & TB). destruct t as [t st]. cbn [fst snd] in *. assert (S0 : 0 < Smax) by (apply (okst_delta pow M Smax g k M0 st O)).
  assert (P := M_pos M g M0). assert (U := ulp2_pos g). assert (V := ulp2_pos k).
  assert (D1 : 0 < ulp2 g * Smax) by (apply Rmult_lt_0_compat; lra). assert (D2 : 0 < M * Smax) by (apply Rmult_lt_0_compat; lra).
  destruct (okst_delta pow M Smax g k M0 st O) as (_ & E1 & E2 & E3 & E4 & E5 & E6).
  set (w := spacewidth (st_font st)) in *. destruct (WID (st_font st) 32%N) as (W1 & W2). change (charwidth (st_font st) 32%N) with w in W1, W2.
  destruct (n1000_val pow) as (F1 & V1).
  assert (UN : Rabs (val w + val (ts_kern t)) <= INR 3 * M) by (eapply Rle_trans; [apply Rabs_triang|]; cbn; lra).
  assert (B := in_points pow M Smax g k M0 3 _ st O UN). split; [|eapply b_weak; [exact S0| |exact B]; lia].
  assert (CG' : 8 * (M + ulp2 g) <= cap g).
  { eapply Rle_trans; [|exact CG]. replace 8 with (INR 8) by (cbn; lra). apply Rmult_le_compat_r; [lra|apply le_INR; lia]. }
  assert (Z := cap_n M Smax g k n M0 CK2 3 10 S0 ltac:(lia) ltac:(lia)). replace (INR 10) with 10 in Z by (cbn; lra). replace (INR 3) with 3 in * by (cbn; lra).
  assert (SZ : Rabs (val (st_size st)) = val (st_size st)) by (apply Rabs_right; destruct O as (_ & O1 & O2); lra).
  assert (A1 : close (bdiv w (@n1000 (Float64 pow))) (val w / 1000) (ulp2 g)).
  { rewrite <- V1. eapply close_weak; [|apply (close_div g w _ (val w) 0 SG (exact_close w W1))]; try lra. rewrite V1, Rabs_right; lra. }
  assert (IW := in_points pow M Smax g k M0 1 (val w) st O ltac:(cbn; lra)). replace (INR 1) with 1 in IW by reflexivity.
  assert (A2 : close (bmul (bdiv w (@n1000 (Float64 pow))) (st_size st)) (val w / 1000 * val (st_size st)) delta).
  { eapply close_weak; [|apply (close_mul k _ _ _ _ SK A1 (proj1 O))]; rewrite SZ; [unfold FloatWidths.delta; lra|].
    rewrite <- SZ at 1. rewrite <- Rabs_mult. unfold FloatWidths.delta in Z. lra. }
  assert (A3 := kern_points pow Smax k SK (ts_kern t) st (2 * M) TK TB ltac:(lra) ltac:(assert (C := caps M Smax g k n M0 CK1 CK2 S0); lra) O).
  unfold tspace_width. rewrite TW, TS. unfold space_true. cbn [fst snd]. fold w.
  change (nadd (nmul (ndiv w n1000) (st_size st)) (ndiv (nmul (ts_kern t) (st_size st)) n1000))
    with (badd (bmul (bdiv w (@n1000 (Float64 pow))) (st_size st)) (ndiv (nmul (ts_kern t) (st_size st)) n1000)).
  replace ((val w + val (ts_kern t)) / 1000 * val (st_size st)) with (val w / 1000 * val (st_size st) + val (ts_kern t) / 1000 * val (st_size st)) in * by field.
  eapply (e_weak _ _ 4 S0); [lia|]. eapply close_weak; [|apply (close_add k _ _ _ _ _ _ SK A2 A3)]; cbn [INR]; lra.
Qed.
Lemma gspace_unkern t : gspace t -> gspace (unkern_space pow t) /\ B_box <= B_box.
Proof.
  intros (O & TW & TS & TK & TB). split; [|lra]. assert (P := M_pos M g M0). destruct (zero_close pow) as (Z1 & Z2).
  split; [exact O|]. split; [exact TW|]. split; [exact TS|]. cbn [unkern_space fst ts_kern]. split; [exact Z1|].
  apply abs_out in Z2. apply abs_in; lra.
Qed.
End Text.
