(** * Properties C24-C26, C29, C31-C33: words.
    Specifications: TextSpec (styled text), WordsSpec (text of words, showing
    words), RenderSpec (TJ arrays, displacement). *)
From Coq Require Import QArith Qcanon Sorted String.
From Verif Require Import Base Gfmt FontSpec FontProofs Num Fonts State TextSpec StateProofs
  Words WordsSpec WordProofs WordOps Parse Render RenderSpec RenderProofs WordWidth.
Local Open Scope list_scope.
Open Scope nat_scope.

(** ** An example environment: every character is half an em wide, "AV" is kerned,
    words are hyphenated before every upper-case letter but the first. *)
Fixpoint camel (acc w : str) : list str :=
  match w with
  | [] => [acc]
  | c :: r => if ((65 <=? c) && (c <=? 90))%N
              then match acc with [] => camel [c] r | _ => acc :: camel [c] r end
              else camel (acc ++ [c]) r
  end.
Definition ex_hyphen (w : str) : list str := match w with [] => [] | _ => camel [] w end.
#[local] Instance ex_words : Env QcNum := {|
  charwidth := fun _ _ => nZ 500;
  kerntab := fun f => if is_builtin f then Some (fun a b => if ((a =? 65) && (b =? 86))%N then nZ (-80) else n0)
                      else None;
  hyphenator := fun h w => match h with 0%N => [w] | _ => ex_hyphen w end;
  is_wordchar := fun c => ((65 <=? c) && (c <=? 122))%N |}.
Lemma ex_splits : all_split.
Proof.
  intros h w N. cbn. destruct h as [|h]; cbn.
  - split; [apply app_nil_r|repeat constructor; exact N].
  - assert (G : forall w acc, (acc = [] -> w <> []) ->
      concat (camel acc w) = acc ++ w /\ Forall (fun p => p <> []) (camel acc w)).
    { clear w N. induction w as [|c w IH]; intros acc HA.
      - cbn. split; [reflexivity|]. constructor; [|constructor]. intros ->. apply HA; reflexivity.
      - cbn. destruct ((65 <=? c) && (c <=? 90))%N.
        + destruct acc as [|a acc].
          * apply (IH [c]). discriminate.
          * destruct (IH [c]) as [I1 I2]; [discriminate|]. cbn. split.
            -- f_equal. f_equal. exact I1.
            -- constructor; [discriminate|exact I2].
        + destruct (IH (acc ++ [c])) as [I1 I2]; [destruct acc; discriminate|].
          rewrite <- app_assoc in I1. auto. }
    unfold ex_hyphen. destruct w; [congruence|]. apply (G (_ :: _) []). auto.
Qed.
(** the value of a computation that succeeds *)
Definition ok_or {A} (d : A) (r : res A) : A := match r with Ok x => x | Err _ => d end.
Definition is_ok {A} (r : res A) : bool := match r with Ok _ => true | Err _ => false end.
Lemma ok_or_eq {A} (d : A) r : is_ok r = true -> r = Ok (ok_or d r).
Proof. destruct r; [reflexivity|discriminate]. Qed.
Definition ex_font := mkFont (TBuiltin Helvetica) false false.
Definition ex_bold := mkFont (TBuiltin Helvetica) true false.
Definition ex_state : state :=
  @mkState QcNum ex_font (Q2Qc 10) (@mkRGB QcNum 0%Qc 0%Qc 0%Qc) (Q2Qc 1) 1%N.
Definition str_of (s : string) : str := bs s.
Arguments str_of s%string_scope.
Definition ex_set_bold : @command QcNum := SetFont ex_bold (Q2Qc 12).

(** ** C24. *)
Theorem C24_words_total : forall (NUM : Num) (ENV : Env NUM) ps st, all_split ->
  exists cmd ws ex, into_words ps st = Ok (cmd, ws, ex).
Proof.
  intros NUM ENV ps st HY. destruct (into_words_spec ps st HY) as (c & ws & ex & a & b & E & _). eauto.
Qed.
Print Assumptions C24_words_total.
Theorem C24_words_keep_text_partial : forall (NUM : Num) (ENV : Env NUM) ps st cmd ws ex,
  all_split -> no_empty_at_break ps ->
  into_words ps st = Ok (cmd, ws, ex) -> flat_map text ws = text_of ps.
Proof.
  intros NUM ENV ps st cmd ws ex HY HB E.
  destruct (into_words_spec ps st HY) as (c & ws' & ex' & a & b & E' & EP & M & _ & X).
  rewrite E in E'. injection E' as <- <- <-.
  assert (T : forall l s, map fst (styled l s) = text_of l).
  { clear. induction l as [|[c t] l IH]; intros s; cbn; auto. rewrite map_app, IH. unfold styled_str.
    rewrite map_map. cbn. rewrite map_id. reflexivity. }
  assert (TX : flat_map text ws = text_of a).
  { rewrite <- (T a st), <- M. unfold measured_all, text. clear. induction ws; cbn; auto.
    rewrite map_app. f_equal. exact IHws. }
  rewrite TX, EP. destruct ex.
  - subst b. rewrite app_nil_r. reflexivity.
  - destruct X as (a' & c0 & -> & H). rewrite text_of_app. rewrite <- app_assoc in EP. cbn in EP.
    rewrite (HB _ _ _ EP H), app_nil_r. reflexivity.
Qed.
Print Assumptions C24_words_keep_text_partial.
(** An empty passage after a word boundary: everything after it is lost. *)
Theorem C24_words_keep_text_refuted : forall (NUM : Num) (ENV : Env NUM) c1 t1 c2 rest st,
  all_split -> t1 <> [] -> ends_at_break t1 = true ->
  exists cmd ws, into_words ((c1, t1) :: (c2, []) :: rest) st = Ok (cmd, ws, false)
    /\ flat_map text ws = t1.
Proof.
  intros NUM ENV c1 t1 c2 rest st HY N HB. unfold into_words. cbn [fold_commands].
  destruct t1 as [|ch t0] eqn:Et; [congruence|]. rewrite <- Et in *. clear ch t0 Et.
  cbn [parse_loop List.length bind]. destruct t1 as [|ch t0] eqn:Et; [congruence|]. rewrite <- Et in *. clear ch t0 Et.
  destruct (simple_words_spec (S (List.length t1)) t1 (apply c1 st) None HY ltac:(lia) N)
    as (ws & last & E & _ & _ & R).
  rewrite E. cbn [bind]. destruct last as [r|w].
  - destruct R as (_ & NR & SR & t0 & -> & _). exfalso.
    rewrite ends_at_break_app in HB by exact NR. apply split_word_none in SR. congruence.
  - destruct R as (R & _). cbn [bind fst snd]. eexists _, _. split; [reflexivity|].
    transitivity (map fst (measured_all (words_of ws) ++ measured_word w)).
    + rewrite map_app. rewrite flat_map_app. f_equal.
      * unfold words_of, measured_all, text. clear. induction ws; cbn; auto. rewrite map_app. f_equal. exact IHws.
      * cbn. rewrite app_nil_r. unfold text. rewrite measured_with_cmd. reflexivity.
    + rewrite R. unfold styled_str. rewrite map_map. cbn. apply map_id.
Qed.
Print Assumptions C24_words_keep_text_refuted.
(** Paragraph(["Hello ", Span("", bold), "world"]): "world" is lost; without the
    empty span it is kept. *)
Example C24_example_lost :
  (do x <- into_words [(NoOp, str_of "Hello "); (NoOp, []); (ex_set_bold, str_of "world")] ex_state;
   Ok (flat_map text (snd (fst x)))) = Ok (str_of "Hello ").
Proof. vm_compute. reflexivity. Qed.
Example C24_example_kept :
  (do x <- into_words [(NoOp, str_of "Hello "); (ex_set_bold, str_of "wor"); (NoOp, str_of "ld")] ex_state;
   Ok (flat_map text (snd (fst x)))) = Ok (str_of "Hello world").
Proof. vm_compute. reflexivity. Qed.

(** ** C25. Every kept character is measured in the state its passage prescribes;
    showing the words (after the leading command) reaches it in that state, when
    merged commands lose nothing ([runs_ok]; automatic when no passage is empty,
    see C21 for the defect otherwise). *)
Theorem C25_words_keep_style_partial : forall (NUM : Num) (ENV : Env NUM) ps st cmd ws ex,
  all_split -> runs_ok ps -> into_words ps st = Ok (cmd, ws, ex) ->
  exists a b, ps = a ++ b
    /\ measured_all ws = styled a st
    /\ exec_all ws (apply cmd st) = (styled a st, end_state a st)
    /\ (ex = true -> b = []).
Proof.
  intros NUM ENV ps st cmd ws ex HY HR E.
  destruct (into_words_spec ps st HY) as (c & ws' & ex' & a & b & E' & EP & M & C & X).
  rewrite E in E'. injection E' as <- <- <-. destruct (C HR) as [C1 C2].
  exists a, b. split; auto. split; auto. split.
  - rewrite (coh_all_exec _ _ C2), M, C1. reflexivity.
  - intros ->. exact X.
Qed.
Print Assumptions C25_words_keep_style_partial.
Lemma runs_ok_nonempty : forall (NUM : Num) (ps : list passage),
  Forall (fun p : passage => snd p <> []) ps -> runs_ok ps.
Proof.
  intros NUM ps H a run b -> HF s. apply Forall_app in H as [_ H]. apply Forall_app in H as [H _].
  destruct run as [|p [|q run]]; [reflexivity|reflexivity|].
  inversion HF as [|? ? H1 _]; subst. inversion H; subst. congruence.
Qed.
Theorem C25_words_keep_style_nonempty : forall (NUM : Num) (ENV : Env NUM) ps st cmd ws ex,
  all_split -> Forall (fun p : passage => snd p <> []) ps ->
  into_words ps st = Ok (cmd, ws, ex) ->
  exec_all ws (apply cmd st) = (styled ps st, end_state ps st) /\ measured_all ws = styled ps st.
Proof.
  intros NUM ENV ps st cmd ws ex HY HF E.
  destruct (into_words_spec ps st HY) as (c & ws' & ex' & a & b & E' & EP & M & C & X).
  rewrite E in E'. injection E' as <- <- <-. destruct (C (runs_ok_nonempty _ ps HF)) as [C1 C2].
  assert (B : b = []).
  { destruct ex; [exact X|]. exfalso. destruct X as (a' & c0 & -> & _). rewrite EP in HF.
    rewrite <- app_assoc in HF. apply Forall_app in HF as [_ HF]. inversion HF; subst. cbn in *. congruence. }
  subst b. rewrite app_nil_r in EP. subst a. rewrite (coh_all_exec _ _ C2), M, C1. auto.
Qed.
Print Assumptions C25_words_keep_style_nonempty.
Example C25_example :
  exists cmd ws ex, into_words [(NoOp, str_of "one T"); (ex_set_bold, str_of "wo-three f"); (SetColor (@mkRGB QcNum 1%Qc 0%Qc 0%Qc), str_of "our")] ex_state = Ok (cmd, ws, ex)
  /\ List.length ws = 4.
Proof.
  destruct (C24_words_total _ ex_words [(NoOp, str_of "one T"); (ex_set_bold, str_of "wo-three f"); (SetColor (@mkRGB QcNum 1%Qc 0%Qc 0%Qc), str_of "our")] ex_state ex_splits) as (c & ws & ex & E).
  exists c, ws, ex. split; [exact E|].
  assert (H : (do x <- into_words [(NoOp, str_of "one T"); (ex_set_bold, str_of "wo-three f"); (SetColor (@mkRGB QcNum 1%Qc 0%Qc 0%Qc), str_of "our")] ex_state; Ok (List.length (snd (fst x)))) = Ok 4) by (vm_compute; reflexivity).
  rewrite E in H. cbn in H. congruence.
Qed.

(** ** C26. *)
Theorem C26_syllables : forall (NUM : Num) (ENV : Env NUM) (s : str) (hy : str -> list str),
  splits hy ->
  exists parts, into_syllables s hy = Ok parts
    /\ concat parts = s /\ Forall (fun p => p <> []) parts.
Proof. intros NUM ENV s hy H. apply into_syllables_spec, H. Qed.
Print Assumptions C26_syllables.
Theorem C26_never_hyphenate : forall (NUM : Num) (ENV : Env NUM) (s : str),
  s <> [] -> into_syllables s (fun w => [w]) = Ok [s].
Proof. intros NUM ENV s H. rewrite into_syllables_never. destruct s; congruence. Qed.
Print Assumptions C26_never_hyphenate.
Example C26_example : into_syllables (str_of "(camelCaseWord),don'tStop!") ex_hyphen
  = Ok (map str_of ["(camel"; "Case"; "Word),don't"; "Stop!"]%string).
Proof. reflexivity. Qed.

(** ** C29. The TJ array of an encoded text [concat codes] (codes of [w] bytes),
    read by a PDF reader, is the codes in order with each kerning value, negated,
    immediately before the character it belongs to. *)
Theorem C29_tj_array : forall (NUM : Num) (w : nat) (codes : list bytes) (kern : list (nat * num)),
  0 < w -> Forall (fun c : bytes => List.length c = w) codes ->
  StronglySorted lt (map fst kern) -> Forall (fun e => fst e < List.length codes) kern ->
  tj_events w (encode_kerning (concat codes) kern w) = kerned 0 codes kern.
Proof. intros NUM w codes kern Hw HC HS HR. apply encode_kerning_events; auto. split; auto. Qed.
Print Assumptions C29_tj_array.
(** The kerning lists the fonts produce qualify, and so do encoded texts. *)
Theorem C29_tj_of_fragment : forall (ENV : Env QcNum) (t : str) (st : state) (prev : option char) (cs : cstate) tj cs',
  t <> [] ->
  (is_builtin (st_font st) = false ->
     (cm_next (cs_get cs (st_font st)) + N.of_nat (List.length t) < 65536)%N
     /\ forall e, In e (cm_entries (cs_get cs (st_font st))) -> (snd e < cm_next (cs_get cs (st_font st)))%N) ->
  item_tj (ISlug (slug_new t st prev)) cs = (tj, cs') ->
  exists codes, fst (font_encode (st_font st) t cs) = concat codes
    /\ List.length codes = List.length t
    /\ tj_events (encoding_width (st_font st)) tj = kerned 0 codes (font_kern (st_font st) t prev).
Proof.
  intros ENV t st prev cs tj cs' N HC E. cbn in E.
  destruct (font_encode (st_font st) t cs) as [b cs1] eqn:F. injection E as <- <-.
  destruct (font_encode_codes _ _ _ _ _ (fun H => proj1 (HC H)) (fun H => proj2 (HC H)) F) as (codes & -> & L1 & L2).
  exists codes. split; [reflexivity|]. split; [exact L2|]. apply encode_kerning_events; auto.
  - unfold encoding_width. destruct (is_builtin _); lia.
  - rewrite L2. apply font_kern_wf.
Qed.
Print Assumptions C29_tj_of_fragment.
Example C29_example :
  tj_events 1 (encode_kerning (str_of "AVAT") [(1, @nZ QcNum (-80)); (3, nZ (-20))] 1)
  = [Glyph [65%N]; Adj (nneg (nZ (-80))); Glyph [86%N]; Glyph [65%N]; Adj (nneg (nZ (-20))); Glyph [84%N]].
Proof. reflexivity. Qed.

(** ** C31. Words made by the parser and by every operation of the typesetters. *)
Inductive made {ENV : Env QcNum} : wordlike -> Prop :=
| made_parsed ps st cmd ws ex w : into_words ps st = Ok (cmd, ws, ex) -> In w ws -> made w
| made_hyph_fit w sp a b : made w -> wl_hyphenate w sp = Ok (Some a, b) -> made a
| made_hyph_rest w sp a b : made w -> wl_hyphenate w sp = Ok (a, b) -> made b
| made_min w a b : made w -> wl_minimal w = (a, b) -> made a
| made_min_rest w a b : made w -> wl_minimal w = (a, Some b) -> made b
| made_unkern w : made w -> made (wl_without_init_kern w)
| made_pruned w : made w -> made (wl_pruned w)
| made_indent w x w' : made w -> wl_indent w x = Ok w' -> made w'
| made_extend w x w' : made w -> wl_extend_tail w x = Ok w' -> made w'
| made_stretch w x w' : made w -> wl_stretch_tail w x = Ok w' -> made w'
| made_box w b : made w -> In b (wl_boxes w) -> made (WBox b)
| made_hyphen b : made (WBox b) -> made (WBox (box_with_hyphen b))
| made_cmd w c : made w -> made (WCmd w c).
Lemma made_ok : forall (ENV : Env QcNum) w, made w -> wl_ok w.
Proof.
  intros ENV w. induction 1.
  - apply into_words_ok in H. rewrite Forall_forall in H. auto.
  - eapply wl_hyphenate_ok in H0; eauto. destruct H0. auto.
  - eapply wl_hyphenate_ok in H0; eauto. destruct H0. auto.
  - eapply wl_minimal_ok in H0; eauto. destruct H0. auto.
  - eapply wl_minimal_ok in H0; eauto. destruct H0. auto.
  - apply wl_without_init_kern_ok, IHmade.
  - apply wl_pruned_ok, IHmade.
  - eapply wl_indent_ok in H0; eauto.
  - eapply wl_extend_tail_ok in H0; eauto. tauto.
  - eapply wl_stretch_tail_ok in H0; eauto. tauto.
  - assert (F : Forall box_ok (wl_boxes w)).
    { clear -IHmade. induction w; cbn in *; auto. apply IHmade. }
    rewrite Forall_forall in F. apply F, H0.
  - apply box_with_hyphen_ok, IHmade.
  - exact IHmade.
Qed.
Theorem C31_width_is_displayed : forall (ENV : Env QcNum) (w : wordlike), made w ->
  wl_width w = wl_advance w /\ wl_pruned_width w = wl_advance (wl_pruned w)
  /\ wl_prunable w = (wl_advance w - wl_advance (wl_pruned w))%Qc.
Proof.
  intros ENV w H. apply made_ok in H. pose proof (wl_width_ok _ H) as H1.
  pose proof (wl_pruned_width_ok _ H) as H2. split; [exact H1|]. split; [exact H2|].
  rewrite <- H1, <- H2. pose proof (wl_width_split w) as H3.
  set (a := wl_width w) in *. set (b := wl_pruned_width w) in *. set (c := wl_prunable w) in *.
  clearbody a b c. clear -H3. qc.
Qed.
Print Assumptions C31_width_is_displayed.
(** Indenting adds the indent, stretching adds the amount. *)
Theorem C31_indent_extend : forall (ENV : Env QcNum) (w w' : wordlike) (x : Qc), made w ->
  wl_tail w <> None -> wl_extend_tail w x = Ok w' ->
  wl_advance w' = (wl_advance w + x)%Qc.
Proof.
  intros ENV w w' x H T E. pose proof (made_ok _ _ H) as O.
  apply wl_extend_tail_ok in E; auto. destruct E as (O' & E & _).
  rewrite <- (wl_width_ok _ O), <- (wl_width_ok _ O'). auto.
Qed.
Print Assumptions C31_indent_extend.
Definition ex_parse (ps : list passage) : list wordlike :=
  snd (fst (ok_or (NoOp, [], false) (into_words ps ex_state))).
Lemma ex_parse_made ps w : is_ok (into_words ps ex_state) = true -> In w (ex_parse ps) -> made w.
Proof.
  intros H I. apply (ok_or_eq (NoOp, [], false)) in H. unfold ex_parse in I.
  destruct (ok_or _ _) as [[c ws] ex]. eapply made_parsed; eauto.
Qed.
Definition ex_dummy : wordlike := WBox (BMixed [] ex_state).
Definition ex_ava : wordlike := nth 0 (ex_parse [(NoOp, str_of "AVA ")]) ex_dummy.
Definition ex_ava_in : wordlike := ok_or ex_dummy (wl_indent ex_ava (Q2Qc 3)).
(** "AVA " at 10 points: 4 * 5 - 0.8; indented by 3 *)
Example C31_example : made ex_ava_in /\ wl_advance ex_ava_in = Q2Qc (111 # 5).
Proof.
  split.
  - eapply made_indent.
    + apply (ex_parse_made [(NoOp, str_of "AVA ")] ex_ava); [vm_compute; reflexivity|apply nth_In; vm_compute; lia].
    + apply ok_or_eq. vm_compute. reflexivity.
  - apply Qc_is_canon. vm_compute. reflexivity.
Qed.

(** ** C32. *)
Theorem C32_hyphenate_keeps_text : forall (NUM : Num) (ENV : Env NUM) (w : wordlike) (space : num) a b,
  wl_hyphenate w space = Ok (a, b) ->
  match a with
  | None => measured b = measured w
  | Some a => exists first, measured a = first ++ [(45%N, wl_state a)] /\ measured w = first ++ measured b
  end.
Proof.
  intros NUM ENV w space a b E. apply wl_hyphenate_cases in E. destruct a; [apply E|apply E].
Qed.
Print Assumptions C32_hyphenate_keeps_text.
(** the width of the first [S k] syllables followed by a hyphen *)
Definition hyph_width {ENV : Env QcNum} (w : wordlike) (k : nat) : Qc :=
  boxes_advance (firstn k (wl_boxes w)
    ++ match nth_error (wl_boxes w) k with Some b => [box_with_hyphen b] | None => [] end).
Theorem C32_hyphenate_fits : forall (ENV : Env QcNum) (w : wordlike) (space : Qc) a b, made w ->
  wl_hyphenate w space = Ok (Some a, b) ->
  exists k, (S k < List.length (wl_boxes w))%nat
    /\ (wl_advance a <= space)%Qc /\ wl_advance a = hyph_width w k
    /\ (space < hyph_width w (S k))%Qc
    /\ List.length (wl_boxes b) = (List.length (wl_boxes w) - S k)%nat.
Proof.
  intros ENV w space a b M E. pose proof (made_ok _ _ M) as O.
  assert (OA : wl_ok a) by (eapply wl_hyphenate_ok in E; eauto; destruct E; auto).
  clear M.
  assert (X : exists pre x nb r, wl_boxes w = pre ++ x :: nb :: r /\ wl_boxes a = pre ++ [box_with_hyphen x]
    /\ List.length (wl_boxes b) = S (List.length r) /\ wl_tail a = None
    /\ (bsum (pre ++ [box_with_hyphen x]) <= space)%Qc
    /\ (space < bsum (pre ++ [x; box_with_hyphen nb]))%Qc).
  { clear O OA. revert a b E. induction w as [b0|w|w IH c]; intros a b E; cbn in E.
    - discriminate.
    - apply rmap_inv in E as ([x y] & E & E2). destruct x as [x|]; [|discriminate]. injection E2 as -> ->.
      apply hyph_word in E as (pre & x0 & nb & r & H1 & H2 & H3 & H4 & H5 & H6).
      exists pre, x0, nb, r. cbn. rewrite H3. auto 10.
    - apply rmap_inv in E as ([x y] & E & E2). cbn in E2. injection E2 as <- ->.
      apply IH in E as (pre & x0 & nb & r & H1 & H2 & H3 & H4 & H5 & H6).
      exists pre, x0, nb, r. cbn. destruct c; auto 10. }
  destruct X as (pre & x & nb & r & H1 & H2 & H3 & H4 & H5 & H6).
  assert (FB : Forall box_ok (wl_boxes w)).
  { clear -O. induction w; cbn in *; auto. apply O. }
  assert (FA : Forall box_ok (wl_boxes a)).
  { clear -OA. induction a; cbn in *; auto. apply OA. }
  assert (WA : wl_advance a = bsum (wl_boxes a)).
  { rewrite <- (wl_width_ok _ OA). clear -H4. induction a; cbn in *; auto.
    - symmetry. apply (nsum_one (box_width b)).
    - unfold word_width. rewrite H4. apply (Qcplus_0_r (word_pruned_width w)). }
  exists (List.length pre). rewrite H1, app_length. cbn [List.length].
  split; [lia|]. split; [rewrite WA, H2; exact H5|]. split; [|split].
  - rewrite WA, H2. unfold hyph_width. rewrite H1, firstn_app, Nat.sub_diag, firstn_O, app_nil_r, firstn_all.
    rewrite nth_error_app2, Nat.sub_diag by lia. cbn [nth_error].
    rewrite <- H2. apply boxes_width_ok, FA.
  - unfold hyph_width. rewrite H1. rewrite firstn_app.
    replace (S (List.length pre) - List.length pre)%nat with 1%nat by lia. rewrite firstn_all2 by lia.
    rewrite nth_error_app2 by lia. replace (S (List.length pre) - List.length pre)%nat with 1%nat by lia.
    cbn [firstn nth_error]. rewrite <- app_assoc. cbn [app].
    rewrite H1 in FB. apply Forall_app in FB as [F1 F2]. inversion F2 as [|? ? F3 F4]; subst.
    inversion F4; subst. rewrite <- boxes_width_ok; [exact H6|].
    apply Forall_app. split; auto. constructor; auto. constructor; auto using box_with_hyphen_ok.
  - rewrite H3. lia.
Qed.
Print Assumptions C32_hyphenate_fits.
(** ... and nothing longer fits, when syllables do not shrink the word. *)
Theorem C32_hyphenate_maximal : forall (ENV : Env QcNum) (w : wordlike) (space : Qc) a b, made w ->
  (forall k, (S k < List.length (wl_boxes w))%nat -> (hyph_width w k <= hyph_width w (S k))%Qc) ->
  wl_hyphenate w space = Ok (Some a, b) ->
  forall j, (j < List.length (wl_boxes w))%nat -> (hyph_width w j <= space)%Qc ->
  (hyph_width w j <= wl_advance a)%Qc.
Proof.
  intros ENV w space a b M MONO E j J F.
  destruct (C32_hyphenate_fits ENV w space a b M E) as (k & K & W1 & W2 & W3 & _).
  rewrite W2.
  assert (UP : forall d i, (i + d < List.length (wl_boxes w))%nat -> (hyph_width w i <= hyph_width w (i + d))%Qc).
  { induction d as [|d IH]; intros i Hi; [rewrite Nat.add_0_r; apply Qcle_refl|].
    eapply Qcle_trans; [apply IH; lia|]. replace (i + S d)%nat with (S (i + d)) by lia. apply MONO. lia. }
  destruct (le_lt_dec j k) as [L|L].
  - replace k with (j + (k - j))%nat by lia. apply UP. lia.
  - exfalso. pose proof (UP (j - S k)%nat (S k) ltac:(lia)) as U.
    replace (S k + (j - S k))%nat with j in U by lia.
    apply (Qclt_not_le _ _ W3). eapply Qcle_trans; [exact U|exact F].
Qed.
Print Assumptions C32_hyphenate_maximal.
Definition ex_word : wordlike := nth 0 (ex_parse [(NoOp, str_of "aBcDe ")]) ex_dummy.
Example C32_example :
  made ex_word /\
  match wl_hyphenate ex_word (Q2Qc 21) with
  | Ok (Some a, b) => text a = str_of "aBc-" /\ text b = str_of "De "
  | _ => False
  end.
Proof.
  split; [|vm_compute; auto].
  apply (ex_parse_made [(NoOp, str_of "aBcDe ")]); [vm_compute; reflexivity|apply nth_In; vm_compute; lia].
Qed.

(** ** C33. *)
Theorem C33_hyphenate_total : forall (ENV : Env QcNum) (w : wordlike) (space : Qc),
  (forall f c, 0 <= charwidth f 45%N + charkern f c 45%N)%Qc ->
  Forall (fun b => 0 <= st_size (box_state b))%Qc (wl_boxes w) ->
  (space < wl_pruned_width w)%Qc ->
  exists a b, wl_hyphenate w space = Ok (a, b).
Proof.
  intros ENV w space H F L. apply wl_hyph_total; auto.
  eapply Forall_impl; [|exact F]. cbn. intros b Hb. apply hyphen_widens_ok; auto.
Qed.
Print Assumptions C33_hyphenate_total.
(** Without the hypothesis on the space it is raised. *)
Example C33_example_err : wl_hyphenate ex_word (Q2Qc 100) = Err ERuntime
  /\ Forall (fun b => 0 <= st_size (box_state b))%Qc (wl_boxes ex_word)
  /\ (Q2Qc 21 < wl_pruned_width ex_word)%Qc.
Proof.
  split; [vm_compute; reflexivity|]. split.
  - repeat (constructor; [vm_compute; discriminate|]). constructor.
  - vm_compute. reflexivity.
Qed.
