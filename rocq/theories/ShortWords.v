(** * ShortWords: words of few characters fit. *)
From Coq Require Import QArith Qcanon Lqa Sorted.
From Verif Require Import Base FontProofs Num Fonts State Style TextSpec StateProofs Words WordsSpec WordProofs WordOps
  Parse Render RenderSpec RenderProofs WordWidth Firstfit KnuthPlass Optimum Properties_Optimum Common LayoutStyle BuiltinTables Builtins Properties_Builtins OptimumTotal.
From Verif Require Import Properties_Words.
Local Open Scope list_scope.
Open Scope nat_scope.

(** ** The widths of the standard fonts *)
Definition width_ok (m : list (N * Z) * Z * list (N * list (N * Z))) : bool :=
  let '(w, d, k) := m in
  forallb (fun p => snd p <=? 1100)%Z w && (d <=? 1100)%Z
  && forallb (fun r => forallb (fun p => (-300 <=? snd p) && (snd p <=? 100))%Z (snd r)) k.
Lemma width_ok_spec m : width_ok m = true ->
  match of_table m with
  | (width, Some kern) => forall a c, (width c <= 1100 /\ -300 <= kern a c <= 100)%Z
  | _ => False
  end.
Proof.
  destruct m as [[w d] k]. cbn [width_ok of_table]. rewrite !andb_true_iff. intros [[W D] K] a c. rewrite forallb_forall in W, K. apply Z.leb_le in D.
  split.
  - destruct (dictget_cases w d c) as [->|I]; [exact D|]. apply W in I. apply Z.leb_le in I. exact I.
  - unfold kernget. destruct (dictget_cases k [] a) as [->|I]; [cbn [dictget]; lia|].
    apply K in I. cbn [fst snd] in I. rewrite forallb_forall in I.
    destruct (dictget_cases (dictget k [] a) 0%Z c) as [->|J]; [lia|]. apply I in J. cbn [fst snd] in J.
    apply andb_true_iff in J as [J1 J2]. apply Z.leb_le in J1, J2. lia.
Qed.
Lemma builtin_bounds : forall b bold italic a c,
  (builtin_width b bold italic c <= 1100 /\ -300 <= builtin_kern b bold italic a c <= 100)%Z.
Proof.
  assert (T : forallb width_ok [metrics_Helvetica; metrics_Helvetica_Bold; metrics_Helvetica_Oblique; metrics_Helvetica_BoldOblique;
    metrics_Times_Roman; metrics_Times_Bold; metrics_Times_Italic; metrics_Times_BoldItalic] = true) by (vm_compute; reflexivity).
  rewrite forallb_forall in T.
  intros b bold italic a c. unfold builtin_width, builtin_kern.
  destruct b; try (cbn; lia); destruct bold, italic; cbn [builtin_metrics pick4];
    match goal with |- context[of_table ?m] =>
      assert (X := width_ok_spec m (T m ltac:(cbn [In]; tauto))); destruct (of_table m) as [w [k|]]; [apply X|destruct X] end.
Qed.
Definition QZ (z : Z) : Qc := Q2Qc (inject_Z z).
Lemma QZ_le a b : (a <= b)%Z -> (QZ a <= QZ b)%Qc.
Proof. intros H. unfold QZ, Qcle. rewrite !this_Q2Qc. unfold Qle. cbn. lia. Qed.
Lemma QZ_plus a b : QZ (a + b) = (QZ a + QZ b)%Qc.
Proof. unfold QZ. apply Qc_is_canon. rewrite this_plus, !this_Q2Qc, inject_Z_plus. reflexivity. Qed.
Lemma nZ_QZ z : @nZ QcNum z = QZ z.
Proof. reflexivity. Qed.
Lemma standard_bounds (ENV : Env QcNum) : standard_metrics ENV -> forall f, is_builtin f = true ->
  (forall c, (charwidth f c <= QZ 1100)%Qc) /\ forall a c, exists k : Z, charkern f a c = QZ k /\ (-300 <= k <= 100)%Z.
Proof.
  intros SM [[b|] x y] B; [|discriminate]. destruct (SM b x y) as (W & K). split.
  - intros c. rewrite W, nZ_QZ. apply QZ_le, (builtin_bounds b x y 0%N c).
  - intros a c. destruct (builtin_bounds b x y a c) as (_ & P). unfold builtin_kern in P. unfold charkern.
    destruct (snd (builtin_metrics b x y)) as [k|], (kerntab _) as [t|]; try contradiction.
    + exists (k a c). split; [apply K|exact P].
    + exists 0%Z. split; [reflexivity|lia].
Qed.

(** ** Slugs of bounded length *)
Section Bound.
Context {ENV : Env QcNum}.
Variables (f0 : font) (z0 : Qc).
Hypothesis ZP : (0 <= z0)%Qc.
Hypothesis CW : forall c, (charwidth f0 c <= QZ 1100)%Qc.
Hypothesis CK : forall a c, (charkern f0 a c <= QZ 100)%Qc.
Lemma sumw_bound s : (sumw f0 s <= QZ (1100 * Z.of_nat (List.length s)))%Qc.
Proof.
  induction s as [|c s IH]; [apply Qcle_refl|]. unfold sumw in *. cbn [map List.length]. rewrite nsum_cons_Qc.
  replace (1100 * Z.of_nat (S (List.length s)))%Z with (1100 + 1100 * Z.of_nat (List.length s))%Z by lia.
  rewrite QZ_plus. apply Qcplus_le_compat; [apply CW|exact IH].
Qed.
Lemma sumk_bound k : Forall (fun e : nat * Qc => snd e <= QZ 100)%Qc k -> (sumk k <= QZ (100 * Z.of_nat (List.length k)))%Qc.
Proof.
  induction 1 as [|e k E _ IH]; [apply Qcle_refl|]. rewrite sumk_cons. cbn [List.length].
  replace (100 * Z.of_nat (S (List.length k)))%Z with (100 + 100 * Z.of_nat (List.length k))%Z by lia.
  rewrite QZ_plus. apply Qcplus_le_compat; assumption.
Qed.
Lemma ascending_length l : forall n m, StronglySorted lt l -> Forall (fun i => n <= i < m) l -> List.length l + n <= Nat.max n m.
Proof.
  induction l as [|i l IH]; intros n m S F; [cbn; lia|]. inversion S as [|? ? S1 S2]; subst. inversion F as [|? ? F1 F2]; subst.
  assert (H : List.length l + Datatypes.S i <= Nat.max (Datatypes.S i) m).
  { apply IH; [exact S1|]. rewrite Forall_forall in *. intros j J. specialize (S2 j J). specialize (F2 j J). lia. }
  cbn. lia.
Qed.
Lemma kern_wf_length n (k : list (nat * @num QcNum)) : kern_wf n k -> List.length k <= n.
Proof.
  intros [S F]. pose proof (ascending_length (map fst k) 0 n S) as H. rewrite map_length in H.
  assert (X : Forall (fun i => 0 <= i < n) (map fst k)) by (apply Forall_map; eapply Forall_impl; [|exact F]; cbn; lia).
  specialize (H X). lia.
Qed.
Lemma slug_bound s : slug_ok s -> st_font (sl_state s) = f0 -> st_size (sl_state s) = z0 ->
  Forall (fun e : nat * Qc => snd e <= QZ 100)%Qc (sl_kern s) ->
  (slug_advance s <= QZ (1200 * Z.of_nat (List.length (sl_txt s))) / thousand * z0)%Qc.
Proof.
  intros (_ & WF & _) EF EZ K. rewrite (slug_width_eq s WF), EF, EZ. apply Qcmult_le_compat_r; [|exact ZP].
  rewrite !Qcdiv_def. apply Qcmult_le_compat_r; [|discriminate].
  apply Qcle_trans with (QZ (1100 * Z.of_nat (List.length (sl_txt s))) + QZ (100 * Z.of_nat (List.length (sl_kern s))))%Qc.
  - apply Qcplus_le_compat; [apply sumw_bound|apply sumk_bound, K].
  - rewrite <- QZ_plus. apply QZ_le. apply kern_wf_length in WF. lia.
Qed.
End Bound.

(** ** Texts of short words *)
(** A word: characters other than spaces and line breaks, and the spaces after them *)
Definition short_words (n : nat) (s : str) : Prop :=
  forall a u v b, s = a ++ u ++ v ++ b -> ~ In 32%N u -> ~ In 10%N u -> Forall (eq 32%N) v -> List.length u + List.length v <= n.
Lemma short_part n a b c : short_words n (a ++ b ++ c) -> short_words n b.
Proof.
  intros H x u v y E U N V. apply (H (a ++ x) u v (y ++ c)); auto. rewrite E, <- !app_assoc. reflexivity.
Qed.
Lemma take_spaces t : forall sp r, take_while is_space t = (sp, r) -> Forall (eq 32%N) sp.
Proof.
  induction t as [|c t IH]; intros sp r E; cbn in E; [injection E as <- _; constructor|].
  destruct (is_space c) eqn:S; [|injection E as <- _; constructor]. destruct (take_while is_space t) as [a b]. injection E as <- _.
  constructor; [symmetry; apply N.eqb_eq, S|]. eapply IH; reflexivity.
Qed.
Lemma split_word_piece t : forall w r, split_word t = Some (w, r) -> exists u v, w = u ++ v /\ ~ In 32%N u /\ Forall (eq 32%N) v.
Proof.
  induction t as [|c t IH]; intros w r E; [discriminate|]. cbn in E. destruct (is_space c) eqn:S.
  - destruct (take_while is_space t) as [sp r'] eqn:T. injection E as <- <-. exists [], (c :: sp). split; [reflexivity|]. split; [intros []|].
    constructor; [symmetry; apply N.eqb_eq, S|]. eapply take_spaces, T.
  - destruct (break_char c).
    + injection E as <- <-. exists [c], []. split; [reflexivity|]. split; [|constructor]. intros [->|[]]. discriminate S.
    + destruct (split_word t) as [[w' r']|]; [|discriminate]. cbn in E. injection E as <- <-. destruct (IH _ _ eq_refl) as (u & v & -> & U & V).
      exists (c :: u), v. split; [reflexivity|]. split; [|exact V]. intros [->|H]; [discriminate S|auto].
Qed.
Lemma split_word_none t : split_word t = None -> ~ In 32%N t.
Proof.
  induction t as [|c t IH]; intros E; [intros []|]. cbn in E. destruct (is_space c) eqn:S; [destruct (take_while _ _); discriminate|].
  destruct (break_char c); [discriminate|]. destruct (split_word t) as [[w r]|]; [discriminate|]. intros [->|H]; [discriminate S|]. exact (IH eq_refl H).
Qed.
Section Words.
Context {NUM : Num} {ENV : Env NUM}.
Definition of_piece (n : nat) (st : @state NUM) (w : word) : Prop :=
  exists piece prev, List.length piece <= n /\ word_new piece st prev = Ok w.
Lemma simple_short n fuel : forall t st prev x, short_words n t -> ~ In 10%N t -> simple_words fuel t st prev = Ok x ->
  Forall (of_piece n st) (fst x) /\ match snd x with inl h => List.length h <= n | inr w => of_piece n st w end.
Proof.
  induction fuel as [|fuel IH]; intros t st prev x SW NL E; [discriminate|]. cbn [simple_words] in E.
  destruct (split_word t) as [[w r]|] eqn:ES.
  2:{ apply Ok_inj in E. subst x. cbn. split; [constructor|]. specialize (SW [] t [] []). cbn in SW. rewrite Nat.add_0_r in SW.
      apply SW; auto; [rewrite app_nil_r; reflexivity|apply split_word_none, ES]. }
  pose proof (split_word_piece _ _ _ ES) as (u & v & EW & U & V). apply split_word_app in ES as (ET & _).
  assert (LW : List.length w <= n).
  { rewrite EW, app_length. apply (SW [] u v r); auto.
    - rewrite ET, EW. cbn [app]. rewrite <- app_assoc. reflexivity.
    - intros H. apply NL. rewrite ET, EW. apply in_or_app. left. apply in_or_app. left. exact H. }
  apply bind_ok in E as (y & EY & E). destruct r as [|c r].
  - apply Ok_inj in E. subst x. cbn. split; [constructor|]. exists w, prev. auto.
  - apply bind_ok in E as (z & EZ & E). apply Ok_inj in E. subst x. apply IH in EZ as (A & B).
    + cbn [fst snd]. split; [|exact B]. constructor; [|exact A]. exists w, prev. auto.
    + apply (short_part n w (c :: r) []). rewrite app_nil_r. rewrite <- ET. exact SW.
    + intros H. apply NL. rewrite ET. apply in_or_app. right. exact H.
Qed.
Lemma words_short n c t st cmd ws ex : short_words n t -> ~ In 10%N t -> into_words [(c, t)] st = Ok (cmd, ws, ex) ->
  Forall (fun w => exists x, w = WWord x /\ of_piece n (apply c st) x) ws.
Proof.
  intros SW NL E. unfold into_words in E. cbn [fold_commands] in E. destruct t as [|ch t].
  { apply Ok_inj in E. injection E as _ <- _. constructor. }
  apply bind_ok in E as (z & EZ & E). apply Ok_inj in E. injection E as _ <- _.
  match type of EZ with parse_loop ?f _ _ _ = _ => destruct f as [|fuel]; [discriminate|] end. cbn [parse_loop] in EZ.
  apply bind_ok in EZ as ([l last] & EW & EZ). apply simple_short with (n := n) in EW as (A & B); [|exact SW|exact NL]. cbn [fst snd] in A, B.
  assert (A' : Forall (fun w => exists x, w = WWord x /\ of_piece n (apply c st) x) (map WWord l)).
  { apply Forall_map. eapply Forall_impl; [|exact A]. intros w W. exists w. auto. }
  destruct last as [head|w].
  - apply bind_ok in EZ as ([w next] & EC & EZ). unfold complete_word in EC. cbn [take_parts] in EC.
    apply bind_ok in EC as (w' & EC & E2). apply Ok_inj in E2. injection E2 as -> <-. apply Ok_inj in EZ. subst z. cbn [fst].
    apply Forall_app. split; [exact A'|]. constructor; [|constructor]. exists w. split; [reflexivity|]. exists head, None. auto.
  - apply Ok_inj in EZ. subst z. cbn [fst]. apply Forall_app. split; [exact A'|]. constructor; [|constructor]. exists w. auto.
Qed.

(** ** The pieces of a short word fit *)
Definition short_slug (n : nat) (st : @state NUM) (b : box) : Prop :=
  exists t prev, b = BSlug (slug_new t st prev) /\ t <> [] /\ List.length t <= n.
Lemma slugs_short n st parts : forall prev bs, Forall (fun t : str => t <> [] /\ List.length t <= n) parts ->
  slugs_new parts st prev = Ok bs -> Forall (short_slug n st) bs.
Proof.
  induction parts as [|t parts IH]; intros prev bs F E; cbn in E; [apply Ok_inj in E; subst; constructor|].
  inversion F as [|? ? [T L] F']; subst. destruct t as [|c t]; [congruence|]. apply bind_ok in E as (bs' & E & E2). apply Ok_inj in E2. subst bs.
  constructor; [|eapply IH; eauto]. exists (c :: t), prev. auto.
Qed.
Lemma parts_length (parts : list str) s : concat parts = s -> Forall (fun t => List.length t <= List.length s) parts.
Proof.
  intros <-. induction parts as [|t parts IH]; [constructor|]. cbn [concat]. rewrite app_length. constructor; [lia|].
  eapply Forall_impl; [|exact IH]. cbn. intros; lia.
Qed.
Lemma removelast_length {A} (l : list A) : List.length (removelast l) <= List.length l.
Proof. induction l as [|x [|y l] IH]; cbn in *; lia. Qed.
Lemma piece_slugs n st w : all_split -> of_piece n st w -> Forall (short_slug n st) (w_boxes w).
Proof.
  intros HY (piece & prev & L & E). unfold word_new in E.
  assert (L' : List.length (fst (tspace_parse piece st prev)) <= n).
  { unfold tspace_parse. destruct piece; [exact L|]. destruct (_ =? _)%N; [|exact L]. cbn [fst]. pose proof (removelast_length (n0 :: piece)). lia. }
  destruct (tspace_parse piece st prev) as [s tail]. cbn [fst] in L'. apply bind_ok in E as (parts & EP & E).
  apply bind_ok in E as (bs & E & E2). apply Ok_inj in E2. subst w. cbn [w_boxes]. eapply slugs_short; [|exact E].
  destruct (into_syllables_spec _ s (HY (st_hyphens st))) as (parts' & E' & C & NE). rewrite E' in EP. apply Ok_inj in EP. subst parts'.
  apply parts_length in C. rewrite Forall_forall in *. intros t T. split; [apply NE, T|]. specialize (C t T). cbn in C. lia.
Qed.
(** how many pieces a word of few characters has *)
Lemma slugs_count parts : forall st prev bs, Forall (fun t : str => t <> []) parts -> slugs_new parts st prev = Ok bs ->
  List.length bs = List.length parts /\ flat_map (fun b => map fst (measured_box b)) bs = concat parts.
Proof.
  induction parts as [|t parts IH]; intros st prev bs F E; cbn in E; [apply Ok_inj in E; subst; split; reflexivity|].
  inversion F as [|? ? T F']; subst. destruct t as [|c t]; [congruence|]. apply bind_ok in E as (bs' & E & E2). apply Ok_inj in E2. subst bs.
  destruct (IH _ _ _ F' E) as (A & B). cbn [List.length flat_map concat]. rewrite A, B. split; [reflexivity|]. f_equal.
  cbn [measured_box]. unfold measured_slug, styled_str. cbn [slug_new sl_txt sl_state]. rewrite map_map. cbn [fst]. apply map_id.
Qed.
Lemma parts_count (parts : list str) : Forall (fun t : str => t <> []) parts -> List.length parts <= List.length (concat parts).
Proof. induction 1 as [|t parts T _ IH]; cbn [concat List.length]; [lia|]. rewrite app_length. destruct t; [congruence|]. cbn [List.length]. lia. Qed.
Lemma piece_count n st w : all_split -> of_piece n st w ->
  List.length (w_boxes w) <= n /\ List.length (w_boxes w) <= List.length (text (WWord w)).
Proof.
  intros HY (piece & prev & L & E). unfold word_new in E.
  assert (L' : List.length (fst (tspace_parse piece st prev)) <= n).
  { unfold tspace_parse. destruct piece; [exact L|]. destruct (_ =? _)%N; [|exact L]. cbn [fst]. pose proof (removelast_length (n0 :: piece)). lia. }
  destruct (tspace_parse piece st prev) as [s tail]. cbn [fst] in L'. apply bind_ok in E as (parts & EP & E).
  apply bind_ok in E as (bs & E & E2). apply Ok_inj in E2. subst w. cbn [w_boxes].
  destruct (into_syllables_spec _ s (HY (st_hyphens st))) as (parts' & E' & C & NE). rewrite E' in EP. apply Ok_inj in EP. subst parts'.
  destruct (slugs_count parts st prev bs NE E) as (A & B). assert (PC := parts_count parts NE). rewrite C in PC. split; [lia|].
  unfold text. cbn [measured measured_word w_boxes]. unfold measured_word. cbn [w_boxes w_tail w_state]. rewrite map_app, app_length.
  assert (X : map fst (flat_map measured_box bs) = flat_map (fun b => map fst (measured_box b)) bs).
  { clear. induction bs as [|b bs IH]; cbn [flat_map map]; [reflexivity|]. rewrite <- IH. apply map_app. }
  apply (f_equal (@List.length _)) in X. rewrite map_length, B, C in X. etransitivity; [|apply Nat.le_add_r]. rewrite map_length. rewrite A. etransitivity; [exact PC|]. apply Nat.eq_le_incl. symmetry. exact X.
Qed.
Lemma words_count n c t st cmd ws ex : all_split -> short_words n t -> ~ In 10%N t -> into_words [(c, t)] st = Ok (cmd, ws, ex) ->
  Forall (fun w => List.length (wl_boxes w) <= n) ws
  /\ list_sum (map (fun w => List.length (wl_boxes w) + 2) ws) <= 3 * List.length t.
Proof.
  intros HY SW NL E. assert (A := words_short n c t st cmd ws ex SW NL E).
  assert (T := pw_has_text _ HY (pw_parsed _ _ _ _ _ E)).
  assert (X : flat_map text ws = t).
  { destruct t as [|ch t].
    - unfold into_words in E. cbn [fold_commands] in E. apply Ok_inj in E. injection E as _ <- _. reflexivity.
    - destruct (C25_words_keep_style_nonempty NUM ENV [(c, ch :: t)] st cmd ws ex HY ltac:(constructor; [cbn; discriminate|constructor]) E) as (_ & M).
      unfold measured_all in M. apply (f_equal (map fst)) in M. cbn [styled] in M. rewrite app_nil_r in M.
      unfold styled_str in M. rewrite map_map in M. cbn [fst] in M. rewrite map_id in M. rewrite <- M. clear.
      induction ws as [|w ws IH]; cbn [flat_map map]; [reflexivity|]. rewrite IH. symmetry. apply map_app. }
  split.
  - eapply Forall_impl; [|exact A]. intros w (x & -> & P). apply (piece_count n _ x HY P).
  - rewrite <- X. clear -A T HY. induction A as [|w ws (x & -> & P) _ IH]; cbn [map list_sum fold_right flat_map]; [lia|].
    inversion T as [|? ? T1 T2]; subst. specialize (IH T2). unfold list_sum in IH. rewrite app_length.
    destruct (piece_count n _ x HY P) as (_ & C).
    assert (Y : 1 <= List.length (text (WWord x))).
    { destruct T1 as [T1|T1]; cbn [wl_boxes wl_tail] in T1; [destruct (w_boxes x); [congruence|cbn [List.length] in C; lia]|].
      unfold text. cbn [measured]. unfold measured_word. rewrite map_app, app_length. destruct (w_tail x); [cbn [measured_tail map List.length]; lia|congruence]. }
    cbn [wl_boxes]. lia.
Qed.
End Words.
