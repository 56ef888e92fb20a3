(** * Properties C34-C39: first-fit typesetting.
    Specification: LineSpec (what lines show, which line stands in which column),
    RenderSpec (displayed widths). *)
From Coq Require Import QArith Qcanon Qround String.
From Verif Require Import Base Gfmt FontSpec FontProofs Num Fonts State TextSpec StateProofs
  Words WordsSpec WordProofs WordOps Parse Render RenderSpec RenderProofs WordWidth
  Firstfit LineSpec FirstfitProofs FirstfitWidth Properties_Words.
Local Open Scope list_scope.
Open Scope nat_scope.
#[local] Existing Instance ex_words.

Lemma Forall2_len {A B} (P : A -> B -> Prop) l m : Forall2 P l m -> List.length l = List.length m.
Proof. induction 1; cbn; auto. Qed.
Lemma Forall2_impl' {A B} (P Q : A -> B -> Prop) l m : (forall a b, P a b -> Q a b) -> Forall2 P l m -> Forall2 Q l m.
Proof. induction 2; constructor; auto. Qed.
(** [ff_shape] without justification *)
Lemma ff_plain {NUM : Num} {ENV : Env NUM} fuel ws cols ae lead av cs :
  ff_shape fuel ws cols ae lead av false = Ok cs ->
  steps (Some ws) (placed cols cs) None /\ counts_ok lead ae cols cs /\ cs <> [].
Proof.
  unfold ff_shape. intros E. apply bind_ok in E as (x & E1 & E). apply Ok_inj in E. subst x.
  destruct av; [eapply shape_orphans_spec; eauto|eapply shape_simple_spec; eauto].
Qed.
Lemma ff_justified {NUM : Num} {ENV : Env NUM} fuel ws cols ae lead av cs :
  ff_shape fuel ws cols ae lead av true = Ok cs ->
  exists cs0, ff_shape fuel ws cols ae lead av false = Ok cs0
    /\ Forall2 (Forall2 (fun l l' => justify l = Ok l')) cs0 cs.
Proof.
  unfold ff_shape. intros E. apply bind_ok in E as (x & E1 & E). exists x. rewrite E1. split; [reflexivity|].
  apply mapM_ok in E. eapply Forall2_impl'; [|exact E]. intros a b H. apply mapM_ok, H.
Qed.

(** ** C34. *)
Theorem C34_firstfit_keeps_text : forall (NUM : Num) (ENV : Env NUM) fuel ws cols allow_empty lead avoid justified cs,
  ff_shape fuel ws cols allow_empty lead avoid justified = Ok cs ->
  conserves (map (fun l => measured_all (l_words l)) (concat cs)) (measured_all ws)
  /\ (forall s, coh_all ws s -> coh_all (words_shown cs) s
                                /\ end_all (words_shown cs) s = end_all ws s).
Proof.
  intros NUM ENV fuel ws cols ae lead av ju cs E.
  assert (G : forall cs, ff_shape fuel ws cols ae lead av false = Ok cs ->
    conserves (map (fun l => measured_all (l_words l)) (concat cs)) (measured_all ws)
    /\ (forall s, coh_all ws s -> coh_all (words_shown cs) s /\ end_all (words_shown cs) s = end_all ws s)).
  { clear. intros cs E. apply ff_plain in E as (E & _). apply steps_spec in E as ((ps & E1 & E2) & E3 & E4).
    cbn [opt_list] in *. rewrite <- (placed_lines cols cs). split.
    - exists ps. cbn in E2. rewrite app_nil_r in E2. split; [exact E2|]. rewrite map_map. exact E1.
    - assert (EW : words_shown cs = steps_words (placed cols cs)).
      { unfold words_shown, steps_words. rewrite <- (placed_lines cols cs), !flat_map_concat_map, map_map. reflexivity. }
      intros s H. rewrite EW. apply E4 in H as [H _]. split; [exact H|]. apply E3. }
  destruct ju; [|apply G, E]. apply ff_justified in E as (cs0 & E0 & F).
  destruct (G _ E0) as [G1 G2]. clear G.
  assert (A : Forall2 (fun l l' => Forall2 alike (l_words l) (l_words l')) (concat cs0) (concat cs)).
  { clear -F. induction F as [|a b cs0 cs H _ IH]; cbn; [constructor|]. apply Forall2_app; auto.
    eapply Forall2_impl'; [|exact H]. intros. apply justify_alike. assumption. }
  split.
  - replace (map (fun l => measured_all (l_words l)) (concat cs))
      with (map (fun l => measured_all (l_words l)) (concat cs0)); [exact G1|].
    clear -A. induction A as [|l l' a b H _ IH]; cbn; auto. apply alike_all in H as (-> & _). f_equal. exact IH.
  - intros s H. apply G2 in H as [H1 H2].
    assert (AW : Forall2 alike (words_shown cs0) (words_shown cs)).
    { unfold words_shown. clear -A. induction A; cbn; [constructor|]. apply Forall2_app; auto. }
    apply alike_all in AW as (_ & A2 & A3). split; [apply A3, H1|]. rewrite A2. exact H2.
Qed.
Print Assumptions C34_firstfit_keeps_text.
(** "aBcDe fgHi jk" at 10 points (5 per character) in columns 20 wide, two lines each *)
Definition ex_ws : list wordlike := ex_parse [(NoOp, str_of "aBcDe fgHi jk")].
Definition ex_cols (w h : Z) (i : nat) : @num QcNum * @num QcNum := (nZ w, nZ h).
Definition show_line (l : @line QcNum) : str := map fst (measured_all (l_words l)).
Definition show (cs : res (list (list line))) : res (list (list str)) :=
  rmap (map (map show_line)) cs.
Example C34_example :
  show (ff_shape 50 ex_ws (ex_cols 20 25) false (Q2Qc 10) false false)
  = Ok [[str_of "aBc-"; str_of "De"]; [str_of "fgHi"; str_of "jk"]].
Proof. vm_compute. reflexivity. Qed.

(** ** C35. *)
Theorem C35_firstfit_lines_fit : forall (ENV : Env QcNum) fuel ws cols allow_empty lead avoid cs,
  Forall made ws -> ws <> [] ->
  ff_shape fuel ws cols allow_empty lead avoid false = Ok cs ->
  Forall (fun p => (all_advance (l_words (snd p)) <= fst p)%Qc \/ one_fragment (l_words (snd p)))
         (removelast (placed cols cs))
  /\ (forall p, List.last (map Some (placed cols cs)) None = Some p ->
        (all_advance (prune_last (l_words (snd p))) <= fst p)%Qc \/ one_fragment (l_words (snd p)))
  /\ Forall (fun p => l_width (snd p) = all_advance (l_words (snd p))) (placed cols cs).
Proof.
  intros ENV fuel ws cols ae lead av cs M NE E. apply ff_plain in E as (E & _).
  apply steps_width in E as (E1 & E2 & E3).
  2:{ cbn. eapply Forall_impl; [|exact M]. intros w. apply made_ok. }
  split; [|split].
  - assert (X : forall l, incl l (placed cols cs) ->
      Forall (fun p => (l_width (snd p) + l_space (snd p) = fst p
                     /\ (l_width (snd p) <= fst p \/ one_fragment (l_words (snd p))))%Qc) l ->
      Forall (fun p => (all_advance (l_words (snd p)) <= fst p)%Qc \/ one_fragment (l_words (snd p))) l).
    { intros l I F. rewrite Forall_forall in *. intros p Ip. destruct (F p Ip) as [_ G].
      destruct (E1 p (I p Ip)) as [_ W]. destruct p as [pw pl]. cbn [fst snd] in *. rewrite <- W. exact G. }
    apply X; [|exact E2]. intros p. clear. generalize (placed cols cs). intros l.
    induction l as [|a [|b l] IH]; [auto|cbn; auto|]. intros [->|I]; [left; reflexivity|right; apply IH, I].
  - intros p L. destruct (E3 eq_refl NE p L) as [_ G]. exact G.
  - eapply Forall_impl; [|exact E1]. intros p [_ H]. exact H.
Qed.
Print Assumptions C35_firstfit_lines_fit.
Lemma ex_parse_all ps : is_ok (into_words ps ex_state) = true -> Forall made (ex_parse ps).
Proof. intros H. apply Forall_forall. intros w I. eapply ex_parse_made; eauto. Qed.
(** the hypotheses hold for the paragraph above; in a column narrower than any
    fragment, every fragment is a line of its own *)
Example C35_example : Forall made ex_ws /\ ex_ws <> []
  /\ is_ok (ff_shape 50 ex_ws (ex_cols 20 25) false (Q2Qc 10) false false) = true
  /\ show (ff_shape 50 ex_ws (ex_cols 3 200) false (Q2Qc 10) false false)
     = Ok [[str_of "a-"; str_of "Bc-"; str_of "De "; str_of "fg-"; str_of "Hi "; str_of "jk"]].
Proof.
  split; [apply ex_parse_all; vm_compute; reflexivity|]. split; [intros C; apply (f_equal (@List.length _)) in C; vm_compute in C; discriminate C|].
  split; vm_compute; reflexivity.
Qed.

(** ** C36. *)
Theorem C36_firstfit_room : forall (ENV : Env QcNum) fuel ws cols allow_empty (lead : Qc) avoid cs i ls,
  (0 < lead)%Qc -> ff_shape fuel ws cols allow_empty lead avoid false = Ok cs ->
  nth_error cs i = Some ls ->
  List.length ls = 0
  \/ (nlines (List.length ls) * lead <= snd (cols i))%Qc
  \/ (List.length ls = 1 /\ (0 <= snd (cols i))%Qc /\ (snd (cols i) < lead)%Qc /\ (i = 0 -> allow_empty = false)).
Proof.
  intros ENV fuel ws cols ae lead av cs i ls L E N. apply ff_plain in E as (_ & E & _).
  revert ae cols i E N. induction cs as [|c cs IH]; intros ae cols i; [destruct i; discriminate|].
  cbn [counts_ok]. intros [C1 C2] N. destruct i as [|i]; cbn in N.
  - injection N as ->. apply count_room in C1 as [C1|[C1|(C1 & C3 & C4 & C5)]]; auto. right; right. auto.
  - apply (IH _ _ _ C2) in N as [N|[N|(N1 & N2 & N3 & N4)]]; auto. right; right.
    split; [auto|]. split; [auto|]. split; [auto|discriminate].
Qed.
Print Assumptions C36_firstfit_room.
(** a paragraph that starts below other content: the first column has no room for
    a line and stays empty; the others are too low for a line and get one each *)
Example C36_example :
  show (ff_shape 50 ex_ws (ex_cols 20 8) true (Q2Qc 10) false false)
  = Ok [[]; [str_of "aBc-"]; [str_of "De"]; [str_of "fgHi"]; [str_of "jk"]].
Proof. vm_compute. reflexivity. Qed.

(** ** C37. *)
Lemma take_line_errors {NUM : Num} {ENV : Env NUM} ws w e : take_line ws w = Err e -> e = ERuntime.
Proof.
  assert (HL : forall rest b sp f e, hyph_loop b rest sp f = Err e -> e = ERuntime).
  { induction rest as [|nb rest IH]; intros b sp f e0; cbn; [congruence|]. destruct (nltb _ _); [discriminate|apply IH]. }
  assert (HY : forall x sp e, wl_hyphenate x sp = Err e -> e = ERuntime).
  { induction x as [b|x|x IH c]; intros sp e0; cbn; [discriminate| |].
    - unfold word_hyphenate. destruct (w_boxes x) as [|b0 r]; [discriminate|].
      destruct (nltb _ _); [discriminate|]. destruct (hyph_loop _ _ _ _) as [[[[? ?] ?] ?]|] eqn:H; cbn; [discriminate|].
      intros [= <-]. eauto.
    - destruct (wl_hyphenate x sp) eqn:H; cbn; [discriminate|]. intros [= <-]. eauto. }
  unfold take_line. destruct (fit_words ws w []) as [[c sp] [[x r]|]]; [|discriminate].
  destruct (wl_hyphenate x sp) as [[a b]|e'] eqn:H; cbn; [|intros [= <-]; eauto].
  destruct a; [discriminate|]. destruct (rev c); [|destruct (ntruthy _); discriminate].
  destruct (wl_minimal b) as [y [z|]]; [discriminate|]. destruct r; discriminate.
Qed.
(** For any arithmetic: the number of columns used is bounded, when no column has
    negative height. *)
Theorem C37_firstfit_terminates_partial : forall (NUM : Num) (ENV : Env NUM) ws cols allow_empty lead avoid fuel,
  neqb lead n0 = false -> (forall i, 0 <= nfloordiv (snd (cols i)) lead)%Z ->
  2 * size ws + 2 <= fuel ->
  ff_shape fuel ws cols allow_empty lead avoid false <> Err EFuel.
Proof.
  intros NUM ENV ws cols ae lead av fuel L R F C. unfold ff_shape in C.
  destruct ((if av then shape_orphans else shape_simple) fuel (Some ws) cols ae lead) as [x|e] eqn:E; cbn in C; [discriminate|].
  injection C as ->. assert (X : EFuel = ERuntime); [|discriminate]. destruct av.
  - eapply (shape_orphans_err (fun _ => True) (fun e => e = ERuntime) (fun _ => True)); eauto.
    intros ? ? ? _ _. apply take_line_errors.
  - apply (shape_simple_err (fun _ => True) (fun e => e = ERuntime) (fun _ => True) (fun _ _ _ _ _ _ _ => I)
      (fun ws w e _ _ => take_line_errors ws w e) fuel (Some ws) cols ae lead); auto.
    cbn [opt_list]. destruct ae; lia.
Qed.
Print Assumptions C37_firstfit_terminates_partial.
(** In exact arithmetic it also succeeds, when sizes and hyphen widths are not negative. *)
Theorem C37_firstfit_total_partial : forall (ENV : Env QcNum) ws cols allow_empty (lead : Qc) avoid fuel,
  hyphens_nonneg -> Forall sized ws ->
  (0 < lead)%Qc -> (forall i, 0 <= snd (cols i))%Qc -> 2 * size ws + 2 <= fuel ->
  exists cs, ff_shape fuel ws cols allow_empty lead avoid false = Ok cs.
Proof.
  intros ENV ws cols ae lead av fuel HN HS L R F. unfold ff_shape.
  assert (L' : @neqb QcNum lead n0 = false). { apply Qceqb_neq. intros ->. discriminate L. }
  assert (R' : roomy lead cols).
  { intros i. apply floor_nonneg; auto. change (Q2Qc (inject_Z 0)) with 0%Qc. rewrite Qcmult_0_l. apply R. }
  destruct ((if av then shape_orphans else shape_simple) fuel (Some ws) cols ae lead) as [x|e] eqn:E; cbn; [eauto|].
  exfalso. assert (NE : forall ws (w : @num QcNum) e, True -> Forall sized ws -> take_line ws w = Err e -> False).
  { intros ws0 w e0 _ H T. destruct (take_line_total ws0 w HN H). congruence. }
  assert (PS : forall ws (w : @num QcNum) q l, True -> Forall sized ws -> take_line ws w = Ok (q, l) -> Forall sized (opt_list q)).
  { intros. eapply take_line_sized; eauto. }
  destruct av.
  - eapply (shape_orphans_err (Forall sized) (fun e => False) (fun _ => True)); eauto.
  - apply (shape_simple_err (Forall sized) (fun e => False) (fun _ => True) PS NE fuel (Some ws) cols ae lead e); auto.
    cbn [opt_list]. destruct ae; lia.
Qed.
Print Assumptions C37_firstfit_total_partial.
(** With columns of negative height it never ends, whatever the text. *)
Theorem C37_firstfit_terminates_refuted : forall (NUM : Num) (ENV : Env NUM) ws cols allow_empty lead avoid justified fuel,
  neqb lead n0 = false -> (forall i, nfloordiv (snd (cols i)) lead < 0)%Z ->
  ff_shape fuel ws cols allow_empty lead avoid justified = Err EFuel.
Proof.
  intros NUM ENV ws cols ae lead av ju fuel L R. unfold ff_shape.
  destruct av; [rewrite shape_orphans_negative|rewrite shape_simple_negative]; auto.
Qed.
Print Assumptions C37_firstfit_terminates_refuted.
Example C37_example :
  (forall i, nfloordiv (snd (ex_cols 20 (-5) i)) (nZ 10) < 0)%Z /\ @neqb QcNum (nZ 10) n0 = false
  /\ ff_shape 1000 ex_ws (ex_cols 20 (-5)) false (nZ 10) true false = Err EFuel
  /\ is_ok (ff_shape (2 * size ex_ws + 2) ex_ws (ex_cols 20 25) false (nZ 10) true false) = true.
Proof.
  split; [intros i; vm_compute; reflexivity|]. split; [vm_compute; reflexivity|].
  split; vm_compute; reflexivity.
Qed.
Example C37_example_total : hyphens_nonneg /\ Forall sized ex_ws.
Proof.
  split.
  - intros f c. assert (X : forall x y : Qc, Qcleb 0 x = true -> y = 0%Qc -> (0 <= x + y)%Qc).
    { intros x y H ->. rewrite Qcplus_0_r. apply Qcleb_le, H. }
    apply X; [vm_compute; reflexivity|]. unfold charkern. cbn [kerntab ex_words].
    destruct (is_builtin f); [|reflexivity]. replace (45 =? 86)%N with false by reflexivity.
    rewrite andb_false_r. reflexivity.
  - assert (X : forallb (fun w => forallb (fun b => Qcleb 0 (@st_size QcNum (box_state b))) (wl_boxes w)) ex_ws = true)
      by (vm_compute; reflexivity).
    rewrite forallb_forall in X. apply Forall_forall. intros w I. apply X in I. rewrite forallb_forall in I.
    apply Forall_forall. intros b Ib. apply I in Ib. apply Qcleb_le, Ib.
Qed.

(** ** C38. *)
Theorem C38_no_orphan_at_end : forall (ENV : Env QcNum) fuel ws cols allow_empty (lead w : Qc) pre p l,
  (0 < lead)%Qc -> (forall i, fst (cols i) = w) ->
  ff_shape fuel ws cols allow_empty lead true false = Ok (pre ++ [p; l]) ->
  2 < List.length p -> (lead * nZ 2 <= snd (cols (S (List.length pre))))%Qc ->
  List.length l <> 1.
Proof.
  intros ENV fuel ws cols ae lead w pre p l L HW E LP HL. unfold ff_shape in E.
  apply bind_ok in E as (x & E & EX). apply Ok_inj in EX. subst x.
  eapply shape_orphans_avoided; eauto.
  - intros i H. apply Qcleb_le in H. apply floor_nonneg; auto. rewrite Qcmult_comm. exact H.
  - apply Qcleb_le. exact HL.
Qed.
Print Assumptions C38_no_orphan_at_end.
Theorem C38_no_orphan_at_start : forall (NUM : Num) (ENV : Env NUM) fuel ws cols lead justified first second rest,
  ff_shape fuel ws cols true lead true justified = Ok (first :: second :: rest) ->
  List.length first <> 1.
Proof.
  intros NUM ENV fuel ws cols lead ju first second rest E.
  assert (G : forall cs, ff_shape fuel ws cols true lead true false = Ok cs ->
    forall a b r, cs = a :: b :: r -> List.length a <> 1).
  { clear. intros cs E a b r ->. unfold ff_shape in E. apply bind_ok in E as (x & E & EX). apply Ok_inj in EX. subst x.
    eapply shape_orphans_first; eauto. discriminate. }
  destruct ju; [|eapply G; eauto]. apply ff_justified in E as (cs0 & E0 & F).
  inversion F as [|a ? r ? H1 H2]; subst. inversion H2 as [|b ? r' ? H3 H4]; subst.
  apply Forall2_len in H1. rewrite <- H1. eapply G; eauto.
Qed.
Print Assumptions C38_no_orphan_at_start.
Definition ex_orph : list wordlike := ex_parse [(NoOp, str_of "ab cd ef gh")].
(** four lines in columns of three: the last two go to the second column; without
    orphan avoidance only the last *)
Example C38_example :
  show (ff_shape 50 ex_orph (ex_cols 12 35) false (Q2Qc 10) true false)
  = Ok [[str_of "ab"; str_of "cd"]; [str_of "ef"; str_of "gh"]]
  /\ show (ff_shape 50 ex_orph (ex_cols 12 35) false (Q2Qc 10) false false)
  = Ok [[str_of "ab"; str_of "cd"; str_of "ef"]; [str_of "gh"]].
Proof. split; vm_compute; reflexivity. Qed.
(** five lines in columns of four: 3 + 2 *)
Definition ex_orph5 : list wordlike := ex_parse [(NoOp, str_of "ab cd ef gh ij")].
Example C38_example_end :
  show (ff_shape 50 ex_orph5 (ex_cols 12 45) false (Q2Qc 10) true false)
  = Ok ([] ++ [[str_of "ab"; str_of "cd"; str_of "ef"]; [str_of "gh"; str_of "ij"]])
  /\ (Q2Qc 10 * nZ 2 <= snd (ex_cols 12 45 1))%Qc.
Proof. split; [vm_compute; reflexivity|]. apply Qcleb_le. vm_compute. reflexivity. Qed.
Example C38_example_start :
  show (ff_shape 50 ex_orph (fun i => match i with 0 => ex_cols 12 15 0 | _ => ex_cols 12 45 0 end) true (Q2Qc 10) true false)
  = Ok [[]; [str_of "ab"; str_of "cd"; str_of "ef"; str_of "gh"]].
Proof. vm_compute. reflexivity. Qed.

(** ** C39. *)
Definition has_space {ENV : Env QcNum} (l : line) : Prop := exists w, In w (l_words l) /\ wl_tail w <> None.
Definition sizes_positive {ENV : Env QcNum} (l : line) : Prop :=
  forall w, In w (l_words l) -> wl_tail w <> None -> (0 < st_size (wl_state w))%Qc.
Lemma justify_zero {ENV : Env QcNum} (l l' : line) : l_space l = 0%Qc -> justify l = Ok l' -> l' = l.
Proof.
  intros Z. destruct l as [ws wd sp]. cbn in Z. subst sp. unfold justify, pdiv. cbn [l_words l_space l_width].
  destruct (neqb _ _); [congruence|]. intros E.
  apply bind_ok in E as (ws' & E1 & E). apply Ok_inj in E. subst l'.
  assert (EW : ws' = ws).
  { apply mapM_ok in E1. clear -E1. set (t := tail_sizes ws) in *. clearbody t.
    induction E1 as [|w w' ws ws' E _ IH]; [reflexivity|]. f_equal; [|exact IH].
    assert (Z : @ntruthy QcNum (@nmul QcNum (@ndiv QcNum 0%Qc t) (st_size (wl_state w))) = false).
    { unfold ntruthy. apply negb_false_iff. apply Qceqb_eq.
      change (0 / t * st_size (wl_state w) = 0)%Qc. rewrite Qcdiv_def. ring. }
    destruct w as [b|w|w c]; cbn [wl_extend_tail] in E.
    - congruence.
    - unfold word_extend_tail in E. cbn [wl_state] in *. destruct (w_tail w); cbn in E; [|congruence].
      match type of E with context [if ?b then _ else _] => replace b with false in E by (symmetry; exact Z) end.
      cbn in E. congruence.
    - destruct (wl_tail w); [|congruence].
      match type of E with context [if ?b then _ else _] => replace b with false in E by (symmetry; exact Z) end.
      congruence. }
  subst. f_equal. change (wd + 0 = wd)%Qc. apply Qcplus_0_r.
Qed.
Theorem C39_firstfit_justified : forall (ENV : Env QcNum) fuel ws cols allow_empty lead avoid cs cs',
  Forall made ws -> ws <> [] ->
  ff_shape fuel ws cols allow_empty lead avoid false = Ok cs ->
  ff_shape fuel ws cols allow_empty lead avoid true = Ok cs' ->
  Forall2 (fun p p' => fst p' = fst p
      /\ (has_space (snd p) -> sizes_positive (snd p) -> all_advance (l_words (snd p')) = fst p)
      /\ (~ has_space (snd p) -> snd p' = snd p))
    (removelast (placed cols cs)) (removelast (placed cols cs'))
  /\ (forall p p', List.last (map Some (placed cols cs)) None = Some p ->
        List.last (map Some (placed cols cs')) None = Some p' -> p' = p).
Proof.
  intros ENV fuel ws cols ae lead av cs cs' M NE E E'. apply ff_justified in E' as (cs0 & E0 & F).
  rewrite E in E0. apply Ok_inj in E0. subst cs0. apply ff_plain in E as (E & _).
  apply steps_width in E as (E1 & E2 & E3).
  2:{ cbn. eapply Forall_impl; [|exact M]. intros w. apply made_ok. }
  assert (P : Forall2 (fun p p' => fst p' = fst p /\ justify (snd p) = Ok (snd p')) (placed cols cs) (placed cols cs')).
  { clear -F. revert cols. induction F as [|a b cs cs' H _ IH]; intros cols; cbn; [constructor|].
    apply Forall2_app; auto. induction H; cbn; constructor; auto. }
  clear F. specialize (E3 eq_refl NE). revert P E1 E2 E3. generalize (placed cols cs) (placed cols cs').
  induction 1 as [|p p' l l' [P1 P2] P IH]; intros E1 E2 E3.
  - split; [constructor|discriminate].
  - inversion E1 as [|? ? [O W] E1']; subst. destruct l as [|p1 l].
    + inversion P; subst. split; [constructor|]. intros q q' Q Q'. cbn in Q, Q'. injection Q as <-. injection Q' as <-.
      destruct (E3 p eq_refl) as [Z _]. apply justify_zero in P2; [|exact Z]. destruct p, p'; cbn in *; congruence.
    + inversion P as [|? p1' ? l1' Q1 Q2]; subst.
      change (removelast (p :: p1 :: l)) with (p :: removelast (p1 :: l)) in *.
      change (removelast (p' :: p1' :: l1')) with (p' :: removelast (p1' :: l1')).
      inversion E2 as [|? ? [S _] E2']; subst. destruct (IH E1' E2') as [I1 I2].
      { intros q Q. apply E3. exact Q. }
      split; [|intros q q' Q Q'; apply I2; [exact Q|exact Q']]. constructor; [|exact I1].
      split; [exact P1|]. clear E1 E2 E3 IH P. destruct p as [pw pl], p' as [pw' pl']. cbn [fst snd] in *.
      destruct (justify_width _ _ O W P2) as [J1 J2]. split.
      * intros HS PS. destruct (tail_sizes_pos _ PS) as [_ T]. specialize (T HS).
        destruct J2 as [J2 _]; [intros C; rewrite C in T; discriminate T|]. rewrite J2. exact S.
      * intros NS. apply J1. assert (NT : forall w, In w (l_words pl) -> wl_tail w = None).
        { intros w I. destruct (wl_tail w) eqn:T; auto. exfalso. apply NS. exists w. split; auto. congruence. }
        clear -NT. induction (l_words pl) as [|w r IH]; [reflexivity|]. rewrite tail_sizes_cons.
        rewrite (NT w (or_introl eq_refl)), IH; [apply Qcplus_0_l|]. intros x I. apply NT. right. exact I.
Qed.
Print Assumptions C39_firstfit_justified.
Definition widths (cs : res (list (list line))) : res (list (list Qc)) :=
  rmap (map (map (fun l => all_advance (l_words l)))) cs.
(** two words on each line: in a column 33 wide the first line grows from 25 to 33,
    the last one stays *)
Example C39_example :
  (do a <- widths (ff_shape 50 ex_orph (ex_cols 33 100) false (Q2Qc 10) false false);
   do b <- widths (ff_shape 50 ex_orph (ex_cols 33 100) false (Q2Qc 10) false true);
   Ok (map (map this) a, map (map this) b))
  = Ok ([[25; 25]], [[33; 25]])%Q.
Proof. vm_compute. reflexivity. Qed.
