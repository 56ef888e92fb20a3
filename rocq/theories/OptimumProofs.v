(** * OptimumProofs: fragments, lines and columns of optimal typesetting.
    For every arithmetic. *)
From Coq Require Import Sorted.
From Verif Require Import Base Num Fonts State TextSpec StateProofs Words WordsSpec WordProofs WordOps
  Parse Firstfit KnuthPlass KPSpec KPProofs LineSpec Properties_KnuthPlass Optimum.
Open Scope nat_scope.

Section Proofs.
Context {NUM : Num} {ENV : Env NUM}.

(** words as the parser makes them: a command is attached at most once *)
Definition flat (w : wordlike) : Prop :=
  match w with WWord _ => True | WCmd (WWord _) _ => True | _ => False end.
Lemma flat_with_cmd w c : flat (with_cmd (WWord w) c).
Proof. destruct c; exact I. Qed.
Lemma parse_flat fuel : forall it st txt ws ex, parse_loop fuel it st txt = Ok (ws, ex) -> Forall flat ws.
Proof.
  induction fuel as [|fuel IH]; intros it st txt ws ex H; cbn [parse_loop] in H; [discriminate|].
  destruct txt as [|c txt]; [inversion H; constructor|].
  apply bind_ok in H as ([ws0 last] & _ & H). cbn [fst snd] in H.
  assert (W0 : Forall flat (map WWord ws0)). { apply Forall_forall. intros x Hx. apply in_map_iff in Hx as (y & <- & _). exact I. }
  destruct last as [head|w].
  - apply bind_ok in H as ([w next] & _ & H). destruct next as [[[|c0 r] it']|].
    + destruct it' as [|[cmd t] it'']; [inversion H; apply Forall_app; split; auto; repeat constructor|].
      apply bind_ok in H as ([y e] & E & H). inversion H; subst. apply Forall_app; split; auto.
      constructor; [apply flat_with_cmd|]. eapply IH; eauto.
    + apply bind_ok in H as ([y e] & E & H). inversion H; subst. apply Forall_app; split; auto.
      constructor; [exact I|]. eapply IH; eauto.
    + inversion H. apply Forall_app; split; auto; repeat constructor.
  - destruct it as [|[cmd t] it'']; [inversion H; apply Forall_app; split; auto; repeat constructor|].
    apply bind_ok in H as ([y e] & E & H). inversion H; subst. apply Forall_app; split; auto.
    constructor; [apply flat_with_cmd|]. eapply IH; eauto.
Qed.
Lemma into_words_flat ps st cmd ws ex : into_words ps st = Ok (cmd, ws, ex) -> Forall flat ws.
Proof.
  unfold into_words. destruct (fold_commands ps st []) as [[c x] st']. destruct x as [[t it]|].
  - intros H. apply bind_ok in H as ([y e] & E & H). inversion H; subst. eapply parse_flat; eauto.
  - intros H. inversion H; constructor.
Qed.
Lemma indent_flat ws x ws' : Forall flat ws -> indent_first ws x = Ok ws' -> Forall flat ws'.
Proof.
  unfold indent_first. intros F H. destruct F as [|w r Fw Fr]; [inversion H; constructor|].
  apply bind_ok in H as (w' & E & H). inversion H; subst. constructor; auto.
  destruct w as [b|w|[b|w|w c'] c]; cbn in Fw, E; try contradiction.
  - apply rmap_inv in E as (y & _ & ->). exact I.
  - destruct (ntruthy x); [|inversion E; exact I]. apply rmap_inv in E as (y & E & ->).
    apply rmap_inv in E as (z & _ & ->). exact I.
Qed.

(** ** Fragments *)
Definition frag_word (f : fragment) : wordlike := with_cmd (fr_txt f) (fr_cmd f).
(** what is shown when a line ends with the fragment: as it is, with a hyphen, or
    without its space *)
Definition good_frag (f : fragment) : Prop :=
  match fr_break f with
  | Some w => is_line_of (measured (fr_txt f)) (measured w) /\ wl_tail w = None
              /\ (forall s, coh (fr_txt f) s -> coh w s /\ wl_state w = wl_state (fr_txt f))
  | None => exists t st, fr_txt f = WWord (mkWord [] (Some t) st)
  end.
(** fragments make up words: same text, same style *)
Definition makes_up (fs : list fragment) (w : wordlike) : Prop :=
  measured_all (map fr_txt fs) = measured w
  /\ (forall s, coh w s -> coh_all (map frag_word fs) s /\ end_all (map frag_word fs) s = wl_state w)
  /\ fs <> [].
Lemma chunk_frags bs : forall wd st sh,
  map fst (fst (chunk_boxes bs wd st sh)) = map (fun b => mkFrag (WBox b) (Some (WBox (box_with_hyphen b))) NoOp) bs.
Proof.
  induction bs as [|b bs IH]; intros wd st sh; cbn; auto.
  specialize (IH (nadd wd (box_width b)) st sh). destruct (chunk_boxes bs _ st sh). cbn in *. rewrite IH. reflexivity.
Qed.
Lemma chunk_good b : good_frag (mkFrag (WBox b) (Some (WBox (box_with_hyphen b))) NoOp).
Proof.
  cbn. rewrite box_with_hyphen_measured. split; [right; left; eauto|].
  split; [reflexivity|]. intros s H. split; [apply box_with_hyphen_coh, H|]. apply box_with_hyphen_state.
Qed.
Lemma removelast_last_rev {A} (l : list A) x r : rev l = x :: r -> l = removelast l ++ [x].
Proof.
  intros H. assert (E : l = rev r ++ [x]). { rewrite <- (rev_involutive l), H. reflexivity. }
  rewrite E at 1. f_equal. rewrite E, removelast_app by discriminate. cbn. rewrite app_nil_r. reflexivity.
Qed.
Lemma chunks_measured bs : measured_all (map (@WBox _) bs) = flat_map measured_box bs.
Proof. induction bs; cbn; auto. f_equal; auto. Qed.
Lemma chunks_coh bs : forall s, coh_boxes bs s -> coh_all (map (@WBox _) bs) s /\ end_all (map (@WBox _) bs) s = end_boxes bs s.
Proof.
  induction bs as [|b bs IH]; intros s; cbn; [intros _; split; auto|].
  intros (A & B). destruct (IH _ B) as (C & D). rewrite end_all_cons. auto.
Qed.
Lemma end_boxes_snoc l b s : end_boxes (l ++ [b]) s = box_state b.
Proof. revert s; induction l; intros; cbn; auto. Qed.
Lemma word_boxes_makes just w wd st sh l wd' st' sh' : flat w ->
  word_boxes just w wd st sh = Ok (l, wd', st', sh') ->
  makes_up (map fst l) w /\ Forall good_frag (map fst l)
  /\ (forall f, In f (map fst l) -> fr_break f = None ->
        exists x, w_boxes x = [] /\ (w = with_cmd (WWord x) (fr_cmd f) \/ w = WCmd (WWord x) (fr_cmd f))).
Proof.
  intros F H. unfold word_boxes in H.
  assert (U : exists x c, unwrap w = (WWord x, c) /\ measured w = measured_word x
      /\ (forall s, coh w s <-> coh_word x s) /\ wl_state w = apply c (w_state x)
      /\ (w = with_cmd (WWord x) c \/ w = WCmd (WWord x) c)).
  { destruct w as [b|x|[b|x|w c'] c]; cbn in F; try contradiction.
    - exists x, NoOp. cbn. split; [auto|]. split; [auto|]. split; [reflexivity|]. auto.
    - exists x, c. cbn. split; [auto|]. split; [auto|]. split; [reflexivity|]. auto. }
  destruct U as (x & c & U & MW & CW & SW & WW). rewrite U in H. cbn [wl_boxes wl_tail wl_state] in H.
  destruct (chunk_boxes (removelast (w_boxes x)) wd st sh) as [ch wd1] eqn:CH.
  pose proof (chunk_frags (removelast (w_boxes x)) wd st sh) as CF. rewrite CH in CF. cbn in CF.
  assert (G0 : Forall good_frag (map fst ch)).
  { rewrite CF. apply Forall_forall. intros f Hf. apply in_map_iff in Hf as (b & <- & _). apply chunk_good. }
  assert (B0 : forall f, In f (map fst ch) -> fr_break f <> None).
  { rewrite CF. intros f Hf. apply in_map_iff in Hf as (b & <- & _). discriminate. }
  set (init := removelast (w_boxes x)) in *.
  assert (T0 : map fr_txt (map fst ch) = map (@WBox _) init). { rewrite CF, map_map. reflexivity. }
  assert (W0 : map frag_word (map fst ch) = map (@WBox _) init). { rewrite CF, map_map. reflexivity. }
  destruct (w_tail x) as [t|] eqn:ET.
  - inversion H; subst l wd' st' sh'; clear H. rewrite map_app. cbn [map fst].
    destruct (rev (w_boxes x)) as [|b rb] eqn:R.
    + assert (EB : w_boxes x = []). { rewrite <- (rev_involutive (w_boxes x)), R. reflexivity. }
      assert (EI : init = []) by (unfold init; rewrite EB; reflexivity). rewrite EI in *.
      split; [|split].
      * split; [|split].
        -- rewrite map_app, T0, MW. unfold measured_word. rewrite EB, ET. reflexivity.
        -- intros s C. apply CW in C. destruct C as (C1 & C2). rewrite EB in *. cbn in C2.
           rewrite map_app, W0. cbn [map app frag_word fr_txt fr_cmd coh_all].
           unfold frag_word. cbn [fr_txt fr_cmd]. rewrite coh_with_cmd. unfold end_all. cbn [rev app]. rewrite state_with_cmd, SW. cbn.
           unfold coh_word. cbn. rewrite C2. auto.
        -- destruct (map fst ch); discriminate.
      * apply Forall_app; split; auto. constructor; [|constructor]. cbn. eauto.
      * intros f Hf E. apply in_app_or in Hf as [Hf|[<-|[]]]; [exfalso; eapply B0; eauto|]. exists x. split; [exact EB|exact WW].
    + pose proof (removelast_last_rev _ _ _ R) as EB. fold init in EB.
      split; [|split].
      * split; [|split].
        -- rewrite map_app, T0, MW. rewrite measured_all_app, chunks_measured. cbn. unfold measured_word.
           rewrite EB, ET, flat_map_app. cbn. rewrite !app_nil_r, app_assoc. reflexivity.
        -- intros s C. apply CW in C. destruct C as (C1 & C2). rewrite EB in C1, C2.
           rewrite end_boxes_snoc in C2. apply coh_boxes_app in C1 as (C1 & C3).
           destruct (chunks_coh _ _ C1) as (D1 & D2).
           rewrite map_app, W0. cbn [map frag_word fr_txt fr_cmd]. split.
           ++ apply coh_all_app. split; auto. rewrite D2. cbn. unfold frag_word. cbn [fr_txt fr_cmd]. rewrite coh_with_cmd. cbn. unfold coh_word. cbn.
              cbn in C3. rewrite C2. tauto.
           ++ rewrite end_all_app. unfold end_all at 1. cbn [rev app]. unfold frag_word. cbn [fr_txt fr_cmd]. rewrite state_with_cmd, SW. reflexivity.
        -- destruct (map fst ch); discriminate.
      * apply Forall_app; split; auto. constructor; [|constructor]. cbn. unfold measured_word. cbn. rewrite app_nil_r.
        split; [right; right; eexists; reflexivity|]. split; [reflexivity|]. intros s0 ((C & _) & D). auto.
      * intros f Hf E. apply in_app_or in Hf as [Hf|[<-|[]]]; [exfalso; eapply B0; eauto|]. cbn in E. discriminate.
  - destruct (rev (w_boxes x)) as [|b rb] eqn:R; [discriminate|].
    inversion H; subst l wd' st' sh'; clear H. rewrite map_app. cbn [map fst].
    pose proof (removelast_last_rev _ _ _ R) as EB. fold init in EB.
    split; [|split].
    + split; [|split].
      * rewrite map_app, T0, MW. rewrite measured_all_app, chunks_measured. cbn. unfold measured_word.
        rewrite EB, ET, flat_map_app. cbn. rewrite !app_nil_r. reflexivity.
      * intros s C. apply CW in C. destruct C as (C1 & C2). rewrite EB in C1, C2.
        rewrite end_boxes_snoc in C2. apply coh_boxes_app in C1 as (C1 & C3).
        destruct (chunks_coh _ _ C1) as (D1 & D2).
        rewrite map_app, W0. cbn [map frag_word fr_txt fr_cmd]. split.
        -- apply coh_all_app. split; auto. rewrite D2. cbn. unfold frag_word. cbn [fr_txt fr_cmd]. rewrite coh_with_cmd. cbn in *. tauto.
        -- rewrite end_all_app. unfold end_all at 1. cbn [rev app]. unfold frag_word. cbn [fr_txt fr_cmd]. rewrite state_with_cmd, SW, C2. reflexivity.
      * destruct (map fst ch); discriminate.
    + apply Forall_app; split; auto. constructor; [|constructor]. cbn. split; [left; auto|]. auto.
    + intros f Hf E. apply in_app_or in Hf as [Hf|[<-|[]]]; [exfalso; eapply B0; eauto|]. cbn in E. discriminate.
Qed.

Lemma words_boxes_makes just ws : Forall flat ws -> forall wd st sh l,
  words_boxes just ws wd st sh = Ok l ->
  measured_all (map fr_txt (map fst l)) = measured_all ws
  /\ (forall s, coh_all ws s -> coh_all (map frag_word (map fst l)) s /\ end_all (map frag_word (map fst l)) s = end_all ws s)
  /\ Forall good_frag (map fst l)
  /\ (ws <> [] -> l <> [])
  /\ (forall f, In f (map fst l) -> fr_break f = None ->
        exists x, w_boxes x = [] /\ (In (with_cmd (WWord x) (fr_cmd f)) ws \/ In (WCmd (WWord x) (fr_cmd f)) ws)).
Proof.
  induction 1 as [|w ws Fw Fws IH]; intros wd st sh l H; cbn [words_boxes] in H.
  - inversion H; subst. cbn. split; [reflexivity|]. split; [auto|]. split; [constructor|]. split; [congruence|]. intros f [].
  - apply bind_ok in H as ([[[l1 wd1] st1] sh1] & E1 & H). apply bind_ok in H as (l2 & E2 & H). inversion H; subst l; clear H.
    destruct (word_boxes_makes _ _ _ _ _ _ _ _ _ Fw E1) as ((A1 & A2 & A3) & A4 & A5).
    destruct (IH _ _ _ _ E2) as (B1 & B2 & B3 & B4 & B5). rewrite !map_app.
    split; [rewrite measured_all_app, A1, B1; reflexivity|].
    split; [|split; [apply Forall_app; auto|split]].
    + intros s (C1 & C2). destruct (A2 _ C1) as (D1 & D2). destruct (B2 _ C2) as (D3 & D4).
      rewrite end_all_app, D2, D4, end_all_cons. split; auto. apply coh_all_app. rewrite D2. auto.
    + intros _ E. apply A3. apply app_eq_nil in E as (-> & _). reflexivity.
    + intros f Hf E. apply in_app_or in Hf as [Hf|Hf].
      * destruct (A5 _ Hf E) as (x & Z & [->| ->]); exists x; (split; [exact Z|]); [left|right]; left; reflexivity.
      * destruct (B5 _ Hf E) as (x & Z & [X|X]); exists x; (split; [exact Z|]); [left|right]; right; exact X.
Qed.

(** ** Lines *)
(** the command that would be lost: that of a space standing alone on its line *)
Definition loses_nothing (f : fragment) : Prop := fr_break f = None -> fr_cmd f = NoOp.
Lemma line_words_spec fs ws : Forall good_frag fs -> line_words fs = Ok ws ->
  is_line_of (measured_all (map fr_txt fs)) (measured_all ws)
  /\ (Forall loses_nothing fs \/ 1 < List.length fs ->
      forall s, coh_all (map frag_word fs) s -> coh_all ws s /\ end_all ws s = end_all (map frag_word fs) s).
Proof.
  unfold line_words. intros G H. destruct (rev fs) as [|last ri] eqn:R; [discriminate|].
  assert (E : fs = rev ri ++ [last]). { rewrite <- (rev_involutive fs), R. reflexivity. }
  set (init := rev ri) in *. clearbody init. subst fs. clear R.
  apply Forall_app in G as (G & GL). inversion GL as [|? ? GL' _]; subst. clear GL.
  fold frag_word in H. change (map (fun f => with_cmd (fr_txt f) (fr_cmd f)) init) with (map frag_word init) in H.
  assert (MI : measured_all (map frag_word init) = measured_all (map fr_txt init)).
  { clear. induction init; cbn; auto. unfold frag_word at 1. rewrite measured_with_cmd. f_equal; auto. }
  rewrite !map_app, !measured_all_app. cbn [map].
  unfold good_frag in GL'. destruct (fr_break last) as [tail|] eqn:B.
  - inversion H; subst ws; clear H. rewrite measured_all_app, MI. destruct GL' as (L & NT & C). split.
    + cbn. rewrite !app_nil_r, measured_with_cmd. destruct L as [->|[(st & ->)|(st & ->)]].
      * left; auto.
      * right; left. exists st. rewrite app_assoc. reflexivity.
      * right; right. exists st. rewrite app_assoc. reflexivity.
    + intros _ s H. apply coh_all_app in H as (H1 & H2). cbn in H2. unfold frag_word in H2. rewrite coh_with_cmd in H2.
      destruct (C _ (proj1 H2)) as (D1 & D2). split.
      * apply coh_all_app. split; auto. cbn. rewrite coh_with_cmd. auto.
      * rewrite !end_all_app. unfold end_all. cbn. unfold frag_word. rewrite !state_with_cmd, D2. reflexivity.
  - destruct GL' as (t & st & EL).
    assert (EM : measured_all [fr_txt last] = [(32%N, st)]). { rewrite EL. reflexivity. }
    rewrite EM.
    destruct (rev (map frag_word init)) as [|x r] eqn:RB.
    + inversion H; subst ws; clear H.
      assert (EI : map frag_word init = []). { rewrite <- (rev_involutive (map _ _)), RB. reflexivity. }
      assert (EI' : init = []) by (destruct init; [auto|discriminate]). subst init. cbn in *. split; [right; right; exists st; reflexivity|].
      intros [LN|LN]; [|cbn in LN; lia]. inversion LN as [|? ? LN' _]; subst. specialize (LN' B).
      intros s (H & _). split; auto. unfold end_all, frag_word in *. cbn. rewrite LN' in *. cbn in *. rewrite EL in *. cbn in *.
      symmetry. apply H.
    + inversion H; subst ws; clear H.
      assert (EI : map frag_word init = rev r ++ [x]). { rewrite <- (rev_involutive (map _ _)), RB. reflexivity. }
      assert (MX : measured_all (rev r ++ [with_cmd x (fr_cmd last)]) = measured_all (map frag_word init)).
      { rewrite EI, !measured_all_app. cbn. rewrite measured_with_cmd. reflexivity. }
      rewrite MX, MI. split; [right; right; exists st; reflexivity|].
      intros _ s H. apply coh_all_app in H as (H1 & H2). rewrite EI in H1. apply coh_all_app in H1 as (H1 & H3). split.
      * apply coh_all_app. split; auto. cbn in *. rewrite coh_with_cmd. auto.
      * rewrite !end_all_app. unfold end_all. cbn.
        unfold frag_word. rewrite !state_with_cmd, EL. cbn in *. unfold frag_word in H2. rewrite coh_with_cmd, EL in H2. cbn in H2.
        destruct H2 as (H2 & _). destruct H2 as (_ & H2). cbn in H2. f_equal. rewrite H2. fold frag_word.
        change (map (fun f => with_cmd (fr_txt f) (fr_cmd f)) init) with (map frag_word init). rewrite EI. unfold end_all. rewrite rev_app_distr. reflexivity.
Qed.
Lemma skipn_firstn_split {A} (l : list A) a b : a <= b -> skipn a l = firstn (b - a) (skipn a l) ++ skipn b l.
Proof.
  intros H. rewrite <- (firstn_skipn (b - a) (skipn a l)) at 1. f_equal. revert b H. induction a as [|a IH] in l |- *; intros b H; [rewrite Nat.sub_0_r; reflexivity|].
  destruct b as [|b]; [lia|]. destruct l as [|x l]; [cbn; apply skipn_nil|]. apply (IH l b). lia.
Qed.
(** the lines are made from consecutive slices of the fragments *)
Lemma lines_ragged_slices brs : forall prev fs ls,
  StronglySorted lt (prev :: map br_pos brs) -> (brs <> [] -> List.last (map br_pos brs) 0 = List.length fs) ->
  prev <= List.length fs -> (brs = [] -> prev = List.length fs) ->
  lines_ragged prev brs fs = Ok ls ->
  exists slices, concat slices = skipn prev fs
    /\ Forall2 (fun sl l => line_words sl = Ok (ol_words l)) slices ls
    /\ List.length ls = List.length brs
    /\ map ol_width ls = map br_width brs.
Proof.
  induction brs as [|br brs IH]; intros prev fs ls S L Hp N H; cbn [lines_ragged] in H.
  - inversion H; subst. exists []. rewrite (N eq_refl), skipn_all. repeat split; auto.
  - apply bind_ok in H as (ws & E1 & H). apply bind_ok in H as (ls' & E2 & H). inversion H; subst ls; clear H.
    cbn [map] in S. apply StronglySorted_inv in S as (S & SF). inversion SF as [|? ? S1 _]; subst.
    assert (LB : br_pos br <= List.length fs).
    { specialize (L ltac:(discriminate)). cbn [map] in L. destruct (map br_pos brs) as [|x r] eqn:EM; [cbn in L; lia|].
      change (List.last (x :: r) 0 = List.length fs) in L.
      apply StronglySorted_inv in S as (_ & S). rewrite Forall_forall in S.
      assert (I : In (List.last (x :: r) 0) (x :: r)). { rewrite (app_removelast_last 0 (l := x :: r)) at 2 by discriminate. apply in_or_app. right; left; auto. }
      apply S in I. lia. }
    destruct (IH (br_pos br) fs ls' S) as (sl & A & B & C & D); auto.
    + intros NE. specialize (L ltac:(discriminate)). cbn [map] in L. destruct brs; [congruence|]. exact L.
    + intros ->. specialize (L ltac:(discriminate)). exact L.
    + exists (firstn (br_pos br - prev) (skipn prev fs) :: sl). cbn. rewrite A, C, D. repeat split; auto.
      symmetry. apply skipn_firstn_split. lia.
Qed.

(** ** The column queue *)
Definition asc (c : nat -> Z) : Prop := (1 <= c O)%Z /\ forall j, (c j < c (S j))%Z.
Lemma asc_lt c i j : asc c -> i < j -> (c i < c j)%Z.
Proof. intros (_ & H). induction 1; [apply H|]. specialize (H m). lia. Qed.
Lemma asc_le c i j : asc c -> i <= j -> (c i <= c j)%Z.
Proof. intros A H. destruct (Nat.eq_dec i j) as [->|N]; [lia|]. pose proof (asc_lt c i j A ltac:(lia)). lia. Qed.
Lemma asc_ge c j : asc c -> (Z.of_nat j + 1 <= c j)%Z.
Proof. intros A. induction j; [apply A|]. destruct A as (_ & A). specialize (A j). lia. Qed.
(** the lines before a column *)
Definition before (c : nat -> Z) (j : nat) : Z := match j with O => 0%Z | S j' => c j' end.
Lemma before_lt c j : asc c -> (before c j < c j)%Z.
Proof. intros (A & B). destruct j; cbn; [lia|apply B]. Qed.
Lemma before_ge c j : asc c -> (0 <= before c j)%Z.
Proof. intros A. destruct j; cbn; [lia|]. pose proof (asc_ge c j A). lia. Qed.
Lemma find_col_spec c i fuel : asc c -> forall j, (i + 1 - c j <= Z.of_nat fuel)%Z -> (before c j <= i)%Z ->
  let r := find_col c i fuel j in (before c r <= i < c r)%Z.
Proof.
  intros A. induction fuel as [|fuel IH]; intros j F B; cbn.
  - lia.
  - destruct (i <? c j)%Z eqn:E; [lia|]. apply IH; [|cbn; lia]. destruct A as (_ & A). specialize (A j). lia.
Qed.
Lemma line_col_spec q i : asc (q_counts q) ->
  (before (q_counts q) (line_col q i) <= Z.of_nat i < q_counts q (line_col q i))%Z.
Proof. intros A. unfold line_col. apply find_col_spec; auto; cbn; lia. Qed.
Lemma line_col_eq q i j : asc (q_counts q) -> (before (q_counts q) j <= Z.of_nat i < q_counts q j)%Z -> line_col q i = j.
Proof.
  intros A H. pose proof (line_col_spec q i A) as H'. set (r := line_col q i) in *.
  destruct (Nat.lt_trichotomy r j) as [L|[->|L]]; auto.
  - destruct j as [|j]; [lia|]. cbn in H. pose proof (asc_le _ r j A ltac:(lia)). lia.
  - destruct r as [|r]; [lia|]. cbn in H'. pose proof (asc_le _ j r A ltac:(lia)). lia.
Qed.
Lemma pyslice_pos {A} (l : list A) a b : (0 <= a <= b)%Z ->
  pyslice l a b = firstn (Z.to_nat b - Z.to_nat a) (skipn (Z.to_nat a) l).
Proof.
  intros H. unfold pyslice. replace (a <? 0)%Z with false by lia. replace (b <? 0)%Z with false by lia.
  set (n := List.length l).
  destruct (Z_lt_le_dec (Z.of_nat n) a) as [L|L].
  - rewrite (skipn_all2 l (n := Z.to_nat a)) by (fold n; lia). rewrite skipn_all2 by (fold n; lia). rewrite !firstn_nil. reflexivity.
  - replace (Z.max 0 (Z.min (Z.of_nat n) a)) with a by lia.
    destruct (Z_lt_le_dec (Z.of_nat n) b) as [L'|L'].
    + rewrite !firstn_all2; auto; rewrite skipn_length; fold n; lia.
    + f_equal. lia.
Qed.
Lemma firstn_seq_map {A} (f : nat -> A) a n k : firstn k (map f (seq a n)) = map f (seq a (min k n)).
Proof.
  revert a n. induction k as [|k IH]; intros a n; [reflexivity|]. destruct n as [|n]; [reflexivity|].
  cbn. f_equal. apply IH.
Qed.
Lemma per_column_loop ls q : asc (q_counts q) -> forall fuel j,
  List.length ls - Z.to_nat (before (q_counts q) j) < fuel ->
  exists groups, lines_per_column fuel ls (q_counts q) (before (q_counts q) j) j = Ok groups
    /\ concat groups = skipn (Z.to_nat (before (q_counts q) j)) ls
    /\ map fst (placed (fun k => q_cols q (j + k)) groups)
       = map (line_length q) (seq (Z.to_nat (before (q_counts q) j)) (List.length ls - Z.to_nat (before (q_counts q) j)))
    /\ (forall m g, nth_error groups m = Some g ->
          g <> [] /\ (Z.of_nat (List.length g) <= q_counts q (j + m) - before (q_counts q) (j + m))%Z).
Proof.
  intros A. induction fuel as [|fuel IH]; intros j F; [lia|]. cbn [lines_per_column].
  pose proof (before_lt _ j A) as BL. pose proof (before_ge _ j A) as BG.
  set (c := q_counts q) in *. set (a := Z.to_nat (before c j)) in *.
  rewrite pyslice_pos by lia. fold a.
  destruct (firstn (Z.to_nat (c j) - a) (skipn a ls)) as [|x r] eqn:E.
  - assert (S0 : skipn a ls = []).
    { destruct (skipn a ls); auto. destruct (Z.to_nat (c j) - a) eqn:E'; [lia|discriminate]. }
    exists []. split; auto. split; [rewrite S0; reflexivity|].
    assert (L0 : List.length ls - a = 0). { rewrite <- skipn_length, S0. reflexivity. }
    split; [rewrite L0; reflexivity|]. intros m g. destruct m; discriminate.
  - assert (LN : a < List.length ls).
    { destruct (le_lt_dec (List.length ls) a) as [L|L]; auto. rewrite skipn_all2 in E by auto. rewrite firstn_nil in E. discriminate. }
    destruct (IH (S j)) as (gs & E1 & E2 & E3 & E4).
    { cbn [before]. fold c. lia. }
    cbn [before] in E1, E2, E3. fold c in E1, E2, E3. rewrite E1. cbn. exists ((x :: r) :: gs). split; auto.
    rewrite <- E. split; [|split].
    + cbn [concat]. rewrite E2. symmetry. apply skipn_firstn_split. lia.
    + cbn [placed]. rewrite map_app, map_map. cbn [fst]. rewrite Nat.add_0_r.
      assert (E3' : map fst (placed (fun i => q_cols q (j + S i)) gs) = map fst (placed (fun k => q_cols q (S j + k)) gs)).
      { f_equal. clear. assert (X : forall (f g : nat -> num * num) (cs : list (list oline)), (forall i, f i = g i) -> placed f cs = placed g cs).
        { intros f g cs. revert f g. induction cs as [|l cs IHc]; intros f g H; cbn; auto. rewrite H. f_equal. apply IHc. intros; apply H. }
        apply X. intros i. f_equal. lia. }
      rewrite E3', E3.
      set (k := List.length (firstn (Z.to_nat (c j) - a) (skipn a ls))).
      assert (K : k = min (Z.to_nat (c j) - a) (List.length ls - a)). { unfold k. rewrite firstn_length, skipn_length. reflexivity. }
      assert (M1 : map (fun _ : oline => fst (q_cols q j)) (firstn (Z.to_nat (c j) - a) (skipn a ls))
                   = map (line_length q) (seq a k)).
      { assert (X : forall l : list oline, map (fun _ : oline => fst (q_cols q j)) l = repeat (fst (q_cols q j)) (List.length l)).
        { induction l; cbn; congruence. }
        rewrite X. fold k. clear X. assert (Y : forall n s, a <= s -> s + n <= Z.to_nat (c j) -> repeat (fst (q_cols q j)) n = map (line_length q) (seq s n)).
        { induction n as [|n IHn]; intros s H1 H2; cbn; auto. rewrite (IHn (S s)) by lia. f_equal.
          unfold line_length. rewrite (line_col_eq q s j A); auto. fold c. lia. }
        apply Y; lia. }
      rewrite M1, <- map_app. f_equal.
      destruct (le_lt_dec (List.length ls) (Z.to_nat (c j))) as [L|L].
      * replace (List.length ls - Z.to_nat (c j)) with 0 by lia. cbn. rewrite app_nil_r. f_equal. lia.
      * replace (List.length ls - a) with (k + (List.length ls - Z.to_nat (c j))) by lia.
        rewrite seq_app. f_equal. f_equal. lia.
    + intros m g. destruct m as [|m]; cbn.
      * intros [= <-]. rewrite Nat.add_0_r. split; [rewrite E; discriminate|].
        rewrite firstn_length. fold c. lia.
      * intros H. apply E4 in H. replace (j + S m) with (S j + m) by lia. exact H.
Qed.
Lemma per_column_spec ls q : asc (q_counts q) ->
  exists groups, per_column ls q = Ok groups /\ concat groups = ls
    /\ map fst (placed (q_cols q) groups) = map (line_length q) (seq 0 (List.length ls))
    /\ (forall m g, nth_error groups m = Some g ->
          g <> [] /\ (Z.of_nat (List.length g) <= q_counts q m - before (q_counts q) m)%Z).
Proof.
  intros A. destruct (per_column_loop ls q A (S (S (2 * List.length ls))) 0) as (gs & H1 & H2 & H3 & H4); [lia|].
  cbn [before Z.to_nat] in *. rewrite Nat.sub_0_r in H3. exists gs. auto.
Qed.

(** ** The whole function *)
Section Shape.
Variables (frags : list fragment) (boxes : list kbox) (ragged : bool) (tolerance : num) (P : params).
Variables (cols : nat -> num * num) (lead : num) (ae : bool).
(** the most lines that column [k] may get *)
Definition room (k : nat) : Z := max_line_count (snd (cols k)) lead (ae && (k =? 0)).
Definition queue_ok (d : nat) (q : queue) : Prop :=
  asc (q_counts q) /\ (forall j, q_cols q j = cols (d + j))
  /\ (forall j, q_counts q j - before (q_counts q) j <= room (d + j))%Z.
Definition laid (q : queue) (groups : list (list oline)) : Prop :=
  exists ls, lay frags boxes ragged tolerance P q = Ok ls /\ per_column ls q = Ok groups.
Lemma shorten_ok d q i : queue_ok d q -> (1 < q_counts q i - before (q_counts q) i)%Z -> queue_ok d (shorten_column q i).
Proof.
  intros (A & B & C) H. split; [|split; [exact B|]]; cbn [shorten_column q_counts q_cols].
  - destruct A as (A0 & A1). split.
    + destruct i as [|i]; cbn [Nat.leb]; [cbn in H; lia|exact A0].
    + intros j. specialize (A1 j). destruct (i <=? j) eqn:E1, (i <=? S j) eqn:E2; try lia.
      assert (i = S j) by lia. subst i. cbn in H. lia.
  - intros j. specialize (C j). destruct j as [|j]; cbn [before] in *.
    + destruct (i <=? 0); lia.
    + destruct (i <=? j) eqn:E1, (i <=? S j) eqn:E2; lia.
Qed.
Lemma laid_groups d q groups m g : queue_ok d q -> laid q groups -> nth_error groups m = Some g ->
  g <> [] /\ (Z.of_nat (List.length g) <= q_counts q m - before (q_counts q) m)%Z.
Proof.
  intros (A & _) (ls & _ & E) N. destruct (per_column_spec ls q A) as (gs & E1 & _ & _ & H).
  rewrite E in E1. inversion E1; subst. eauto.
Qed.
Lemma rev_two {A} (l : list A) x y r : rev l = x :: y :: r ->
  nth_error l (List.length l - 2) = Some y /\ nth_error l (List.length l - 1) = Some x /\ 2 <= List.length l.
Proof.
  intros H. assert (E : l = rev r ++ [y; x]). { rewrite <- (rev_involutive l), H. cbn. rewrite <- app_assoc. reflexivity. }
  rewrite E, app_length. cbn [List.length]. split; [|split].
  - rewrite nth_error_app2 by lia. replace (_ - _) with 0 by lia. reflexivity.
  - rewrite nth_error_app2 by lia. replace (_ - _) with 1 by lia. reflexivity.
  - lia.
Qed.
Lemma repair_spec d fuel : forall groups q out, queue_ok d q -> laid q groups ->
  repair frags boxes ragged tolerance P fuel groups q = Ok out ->
  exists q', queue_ok d q' /\ laid q' out.
Proof.
  induction fuel as [|fuel IH]; intros groups q out Q L H; cbn [repair] in H; [discriminate|].
  destruct (rev groups) as [|last [|prev rest]] eqn:R; [discriminate|inversion H; subst; eauto|].
  destruct (rev_two _ _ _ _ R) as (N1 & _ & LE).
  destruct (_ && _ && _) eqn:C in H; [|inversion H; subst; eauto].
  apply andb_true_iff in C as (C & C3). apply andb_true_iff in C as (C1 & C2).
  destruct (laid_groups _ _ _ _ _ Q L N1) as (_ & B1).
  assert (Q' : queue_ok d (shorten_column q (List.length groups - 2))). { apply shorten_ok; auto. lia. }
  apply bind_ok in H as (ls & E1 & H). apply bind_ok in H as (gs & E2 & H).
  assert (L' : laid (shorten_column q (List.length groups - 2)) gs) by (exists ls; auto).
  destruct (rev gs) as [|l' rs]; [eapply IH; eauto|].
  destruct (_ && _) in H; [inversion H; subst; eauto|eapply IH; eauto].
Qed.
Hypothesis ROOMY : forall i, (0 <= nfloordiv (snd (cols i)) lead)%Z.
Lemma room_pos k : (ae = false \/ 0 < k) -> (1 <= room k)%Z.
Proof.
  intros H. unfold room, max_line_count. specialize (ROOMY k). destruct (_ =? 0)%Z eqn:E; [|lia].
  destruct H as [->|H]; cbn; [lia|]. destruct k; [lia|]. rewrite andb_false_r. lia.
Qed.
Lemma room_nonneg k : (0 <= room k)%Z.
Proof. unfold room, max_line_count. specialize (ROOMY k). destruct (_ =? 0)%Z; [destruct (_ && _)|]; lia. Qed.
Lemma count_incr j : (count_to cols lead ae j - before (count_to cols lead ae) j)%Z = room j.
Proof. destruct j; cbn; unfold room; rewrite ?andb_false_r, ?andb_true_r; lia. Qed.
Lemma queue_new_ok : (1 <= count_to cols lead ae 0)%Z -> queue_ok 0 (queue_new cols lead ae).
Proof.
  intros H. split; [split; auto|split; [reflexivity|]].
  - intros j. cbn [queue_new q_counts]. pose proof (count_incr (S j)) as E. cbn [before] in E.
    pose proof (room_pos (S j) ltac:(right; lia)). lia.
  - intros j. cbn [queue_new q_counts]. rewrite count_incr. cbn. lia.
Qed.
Lemma queue_next_ok : queue_ok 1 (queue_new (fun i => cols (S i)) lead false).
Proof.
  assert (E : forall j, (count_to (fun i => cols (S i)) lead false j - before (count_to (fun i => cols (S i)) lead false) j)%Z = room (S j)).
  { intros j. destruct j; cbn; unfold room; rewrite ?andb_false_r; cbn; lia. }
  split; [split; auto|split; [reflexivity|]].
  - pose proof (room_pos 1 ltac:(right; lia)). specialize (E 0). cbn [before] in E. cbn [queue_new q_counts]. lia.
  - intros j. specialize (E (S j)). cbn [before] in E. cbn [queue_new q_counts]. pose proof (room_pos (S (S j)) ltac:(right; lia)). lia.
  - intros j. cbn [queue_new q_counts]. rewrite E. cbn. lia.
Qed.
Lemma remove_first_ok d q : queue_ok d q -> queue_ok (S d) (remove_first_column q).
Proof.
  intros ((A0 & A1) & B & C). split; [split|split]; cbn [remove_first_column q_counts q_cols].
  - specialize (A1 0). lia.
  - intros j. specialize (A1 (S j)). lia.
  - intros j. rewrite B. f_equal. lia.
  - intros j. specialize (C (S j)). replace (d + S j) with (S d + j) in C by lia. destruct j; cbn [before] in *; lia.
Qed.
End Shape.

Lemma opt_shape_spec fuel ws cols (ae : bool) (lead : num) (avoid ragged : bool) tolerance P out :
  (forall i, (0 <= nfloordiv (snd (cols i)) lead)%Z) ->
  opt_shape fuel ws cols ae lead avoid ragged tolerance P = Ok out ->
  exists frags boxes, into_boxes ws (negb ragged) = Ok (frags, boxes) /\
  ((boxes = [] /\ exists d, out = repeat [] d ++ [[oline_empty]] /\ d <= 1 /\ (1 <= room cols lead ae d)%Z)
   \/ exists d q groups, d <= 2 /\ out = repeat [] d ++ groups /\ queue_ok cols lead ae d q
      /\ laid frags boxes ragged tolerance P q groups).
Proof.
  intros ROOMY H. unfold opt_shape in H. apply bind_ok in H as ((frags & boxes) & E & H).
  exists frags, boxes. split; auto. destruct (neqb lead n0); [discriminate|].
  set (q0 := queue_new cols lead ae) in *.
  assert (X : exists d q, d <= 1 /\ (if (q_counts q0 0 =? 0)%Z then ([[]], queue_new (fun i => cols (S i)) lead false) else ([], q0))
     = (repeat (@nil oline) d, q) /\ queue_ok cols lead ae d q).
  { destruct (q_counts q0 0 =? 0)%Z eqn:Z.
    - exists 1, (queue_new (fun i => cols (S i)) lead false). split; auto. split; auto. apply queue_next_ok; auto.
    - exists 0, q0. split; auto. split; auto. apply queue_new_ok; auto.
      pose proof (room_nonneg cols lead ae ROOMY 0). pose proof (count_incr cols lead ae ROOMY 0). cbn [before] in *.
      cbn [q0 queue_new q_counts] in Z. lia. }
  destruct X as (d & q & D & EQ & Q). rewrite EQ in H. clear EQ q0.
  assert (RD : (1 <= room cols lead ae d)%Z).
  { destruct Q as ((Q0 & _) & _ & QR). specialize (QR 0). cbn [before] in QR. rewrite Nat.add_0_r in QR. lia. }
  destruct boxes as [|b0 boxes]; [left; split; auto; inversion H; subst; exists d; auto|]. right.
  apply bind_ok in H as (ls & E1 & H). apply bind_ok in H as (((pre & q1) & ls1) & E2 & H).
  assert (X : exists d', d' <= 2 /\ pre = repeat [] d' /\ queue_ok cols lead ae d' q1
               /\ lay frags (b0 :: boxes) ragged tolerance P q1 = Ok ls1).
  { destruct (_ && _) in E2.
    - apply bind_ok in E2 as (ls' & E3 & E2). inversion E2; subst. exists (S d). split; [lia|].
      split; [destruct d as [|[|]]; [reflexivity|reflexivity|lia]|]. split; auto. apply remove_first_ok; auto.
    - inversion E2; subst. exists d. auto. }
  destruct X as (d' & D' & -> & Q' & L). exists d'.
  apply bind_ok in H as (gs & E3 & H). apply bind_ok in H as (gs' & E4 & H). inversion H; subst; clear H.
  assert (LD : laid frags (b0 :: boxes) ragged tolerance P q1 gs) by (exists ls1; auto).
  destruct avoid.
  - destruct (repair_spec _ _ _ _ _ _ _ _ d' _ _ _ _ Q' LD E4) as (q2 & Q2 & L2). exists q2, gs'. auto.
  - inversion E4; subst. exists q1, gs'. auto.
Qed.

(** ** The lines of one layout *)
Lemma stretch_all_mapM brs ls ls' : stretch_all brs ls = Ok ls' -> List.length ls = List.length brs ->
  Forall2 (fun p l' => oline_stretch (snd p) (br_adjust (fst p)) = Ok l') (combine brs ls) ls'.
Proof.
  revert ls ls'. induction brs as [|b brs IH]; intros [|l ls] ls' H L; cbn in *; try discriminate.
  - inversion H; constructor.
  - apply bind_ok in H as (x & E1 & H). apply bind_ok in H as (r & E2 & H). inversion H; subst. constructor; auto.
Qed.
Section Rows.
Variables (boxes : list kbox) (width : nat -> num) (ragged : bool) (t : tol).
(** a line made from fragments with an adjustment ratio *)
Definition made_line (sl : list fragment) (adj : num) (l : oline) : Prop :=
  exists ws, line_words sl = Ok ws
  /\ if ragged then ol_words l = ws else oline_stretch (mkOLine ws (ol_width l)) adj = Ok l.
Definition recorded (i j : nat) (l : oline) : Prop :=
  exists b f g h, nth_error boxes (j - 1) = Some b /\ line_start boxes i f g h
    /\ ol_width l = nsub (kb_incl_space b) f.
Inductive rows : nat -> nat -> list fragment -> list oline -> Prop :=
| rows_last k i sl l q adj :
    sl <> [] -> i + List.length sl = List.length boxes ->
    line_ratio boxes width ragged k i (List.length boxes) q ->
    adj = nmin q n0 -> nltb (nZ (-1)) adj = true ->
    made_line sl adj l -> recorded i (List.length boxes) l ->
    rows k i sl [l]
| rows_cons k i sl rest l ls q :
    sl <> [] -> rest <> [] ->
    line_ratio boxes width ragged k i (i + List.length sl) q ->
    nltb q (nZ (-1)) = false -> within q t = true ->
    made_line sl q l -> recorded i (i + List.length sl) l ->
    rows (S k) (i + List.length sl) rest ls ->
    rows k i (sl ++ rest) (l :: ls).
Fixpoint widths_from (start : num) (brs : list break) : Prop :=
  match brs with
  | [] => True
  | b :: r => exists x, nth_error boxes (br_pos b - 1) = Some x /\ br_width b = nsub (kb_incl_space x) start
                        /\ widths_from (kb_incl_space x) r
  end.
Lemma widths_from_intro brs : (forall k b, nth_error brs k = Some b ->
  exists stop start, br_width b = (stop - start)%num
    /\ (exists x, nth_error boxes (br_pos b - 1) = Some x /\ stop = kb_incl_space x)
    /\ (match k with
        | 0 => start = n0
        | S k' => exists b' x, nth_error brs k' = Some b' /\ nth_error boxes (br_pos b' - 1) = Some x
                               /\ start = kb_incl_space x
        end)) -> widths_from n0 brs.
Proof.
  intros H. assert (G : forall suf pre start, brs = pre ++ suf ->
     (pre = [] -> start = n0) ->
     (forall p b, pre = p ++ [b] -> exists x, nth_error boxes (br_pos b - 1) = Some x /\ start = kb_incl_space x) ->
     widths_from start suf).
  { induction suf as [|b suf IH]; intros pre start E S0 S1; cbn; auto.
    destruct (H (List.length pre) b) as (stop & st & W & (x & X1 & ->) & ST).
    { rewrite E, nth_error_app2, Nat.sub_diag by lia. reflexivity. }
    exists x. split; auto.
    assert (st = start) as ->.
    { destruct pre as [|p0 pre0] eqn:EP; cbn in ST; [rewrite ST, S0; auto|].
      destruct (@exists_last _ (p0 :: pre0)) as (p & b' & EL); [discriminate|].
      destruct (S1 _ _ EL) as (x' & X' & ->). destruct ST as (b'' & x'' & N & X'' & ->).
      rewrite E, EL in N. assert (LP : List.length pre0 = List.length p).
      { apply (f_equal (@List.length _)) in EL. rewrite app_length in EL. cbn in EL. lia. }
      rewrite LP in N. rewrite <- app_assoc, nth_error_app2, Nat.sub_diag in N by lia. cbn in N. inversion N; subst b''.
      congruence. }
    split; auto. apply (IH (pre ++ [b])); [rewrite <- app_assoc; exact E|destruct pre; discriminate|].
    intros p b' EQ. apply app_inj_tail in EQ as (-> & ->). eauto. }
  apply (G brs [] n0); auto. intros p b E. destruct p; discriminate.
Qed.
Lemma line_start_f i f g h start x : line_start boxes i f g h ->
  (i = 0 -> start = n0) -> (forall i', i = S i' -> nth_error boxes i' = Some x -> start = kb_incl_space x) ->
  (forall i', i = S i' -> nth_error boxes i' = Some x) -> f = start.
Proof.
  destruct i as [|i]; cbn; [intros (-> & _) H _ _; symmetry; auto|].
  intros (a & b & A & B & -> & _) _ H1 H2. rewrite (H1 i eq_refl (H2 i eq_refl)). rewrite (H2 i eq_refl) in A. congruence.
Qed.
Lemma stretch_one ws br brs ls0 ls : forall sl,
  (if ragged then Ok (mkOLine ws (br_width br) :: ls0) else stretch_all (br :: brs) (mkOLine ws (br_width br) :: ls0)) = Ok ls ->
  line_words sl = Ok ws ->
  exists l' ls', ls = l' :: ls' /\ made_line sl (br_adjust br) l' /\ ol_width l' = br_width br
    /\ (if ragged then Ok ls0 else stretch_all brs ls0) = Ok ls'.
Proof.
  intros sl H LW. unfold made_line. destruct ragged.
  - inversion H. eexists _, _. split; [reflexivity|]. split; [|auto]. exists ws. auto.
  - cbn in H. apply bind_ok in H as (l' & E1 & H). apply bind_ok in H as (r & E2 & H). inversion H.
    assert (OW : ol_width l' = br_width br). { unfold oline_stretch in E1. apply bind_ok in E1 as (? & _ & E1). inversion E1. reflexivity. }
    exists l', r. split; auto. split; [|auto]. exists ws. split; auto. rewrite OW. exact E1.
Qed.
Lemma breaking_rows P frags k i c h d l total : List.length frags = List.length boxes ->
  breaking boxes width t P ragged k i c h d l total ->
  forall brs ls0 ls start, l = map pos_ratio brs ->
  widths_from start brs ->
  (forall f g h, line_start boxes i f g h -> f = start) ->
  lines_ragged i brs frags = Ok ls0 ->
  (if ragged then Ok ls0 else stretch_all brs ls0) = Ok ls ->
  rows k i (skipn i frags) ls.
Proof.
  intros LF. induction 1 as [k i c h d q r c' LI LR ER LT CL|k i c h d p b r c' l total IP NB NBK LR LT WI CL BR IH];
    intros brs ls0 ls start EB WF SF EL ES.
  - destruct brs as [|br [|]]; [discriminate| |discriminate]. inversion EB as [[E1 E2]]. cbn [lines_ragged] in EL.
    apply bind_ok in EL as (ws & LW & EL). apply bind_ok in EL as (z & EZ & EL). inversion EZ; subst z. inversion EL; subst ls0. clear EL EZ.
    assert (LW' := LW). rewrite <- E1 in LW'. rewrite firstn_all2 in LW' by (rewrite skipn_length; lia).
    cbn in WF. destruct WF as (x & X1 & X2 & _).
    assert (RC : forall l, ol_width l = br_width br -> recorded i (List.length boxes) l).
    { intros l0 EW. destruct LR as (b0 & f & g & h0 & _ & B0 & LS & _). exists b0, f, g, h0. split; auto. split; auto.
      rewrite EW, X2. rewrite <- E1 in X1. rewrite (SF _ _ _ LS). congruence. }
    assert (SK : skipn i frags <> []). { intros C. apply (f_equal (@List.length _)) in C. rewrite skipn_length in C. cbn in C. lia. }
    assert (SL : i + List.length (skipn i frags) = List.length boxes) by (rewrite skipn_length; lia).
    destruct (stretch_one ws br [] [] ls (skipn i frags)) as (l' & ls' & -> & ML & OW & EN); [destruct ragged; exact ES|exact LW'|].
    assert (ls' = []) as -> by (destruct ragged; cbn in EN; congruence).
    rewrite <- E2 in ML. eapply rows_last; eauto.
  - destruct brs as [|br brs]; [discriminate|]. cbn [map] in EB. inversion EB as [[E1 E2 E3]]. cbn [lines_ragged] in EL.
    apply bind_ok in EL as (ws & LW & EL). apply bind_ok in EL as (ls1 & EL1 & EL). inversion EL; subst ls0. clear EL.
    rewrite <- E1 in LW, EL1. cbn in WF. destruct WF as (x & X1 & X2 & WF). rewrite <- E1 in X1.
    rewrite (skipn_firstn_split frags i p) by lia.
    set (sl := firstn (p - i) (skipn i frags)) in *.
    assert (SL : List.length sl = p - i). { unfold sl. rewrite firstn_length, skipn_length. lia. }
    assert (SP : i + List.length sl = p) by lia.
    assert (SN : sl <> []). { intros C. rewrite C in SL. cbn in SL. lia. }
    assert (RN : skipn p frags <> []). { intros C. apply (f_equal (@List.length _)) in C. rewrite skipn_length in C. cbn in C. lia. }
    assert (RC : forall l, ol_width l = br_width br -> recorded i (i + List.length sl) l).
    { intros l0 EW. rewrite SP. destruct LR as (b0 & f & g & h0 & _ & B0 & LS & _). exists b0, f, g, h0. split; auto. split; auto.
      rewrite EW, X2. rewrite (SF _ _ _ LS). congruence. }
    assert (SF' : forall f g h, line_start boxes p f g h -> f = kb_incl_space x).
    { intros f g h0 LS. destruct p as [|p]; [lia|]. cbn in LS. destruct LS as (a & b0 & A & _ & -> & _). cbn in X1. rewrite Nat.sub_0_r in X1. congruence. }
    destruct (stretch_one ws br brs ls1 ls sl) as (l' & ls' & -> & ML & OW & EN); [destruct ragged; exact ES|exact LW|].
    rewrite <- E2 in ML. eapply rows_cons with (q := r); eauto; rewrite ?SP; eauto.
Qed.
End Rows.
Lemma try_fit_ok ts width P ragged bs brs : try_fit ts width P ragged bs = Ok brs ->
  exists t, In t ts /\ optimum_fit width t P ragged bs = Ok brs.
Proof.
  induction ts as [|t ts IH]; cbn; [discriminate|].
  destruct (optimum_fit width t P ragged bs) as [x|e] eqn:E.
  - intros [= ->]. eauto.
  - destruct e; try discriminate. intros H. destruct (IH H) as (t' & I & E'). eauto.
Qed.
Lemma lay_rows frags boxes ragged tolerance P q ls : List.length frags = List.length boxes ->
  lay frags boxes ragged tolerance P q = Ok ls ->
  exists t, In t (tolerances tolerance) /\ rows boxes (line_length q) ragged t 0 0 frags ls.
Proof.
  intros LF H. unfold lay in H. apply bind_ok in H as (brs & E & H). unfold find_breaks in E.
  destruct boxes as [|b0 boxes0] eqn:EB; [discriminate|]. rewrite <- EB in *. assert (NE : boxes <> []) by congruence. clear EB.
  destruct (try_fit_ok _ _ _ _ _ _ E) as (t & It & F). exists t. split; auto.
  destruct (optimum_fit_sound boxes (line_length q) t P ragged brs NE F) as (total & FE).
  unfold into_lines in H. apply bind_ok in H as (ls0 & E1 & H).
  change frags with (skipn 0 frags). eapply breaking_rows with (brs := brs) (start := n0); eauto.
  - apply widths_from_intro. eapply C42_widths; eauto.
  - intros f g h (-> & _). reflexivity.
Qed.

Lemma made_line_alike ragged sl adj l ws : line_words sl = Ok ws -> made_line ragged sl adj l -> Forall2 alike ws (ol_words l).
Proof.
  intros E (ws' & E' & H). rewrite E in E'. inversion E'; subst ws'. destruct ragged.
  - rewrite H. clear. induction ws; constructor; auto using alike_refl.
  - unfold oline_stretch in H. apply bind_ok in H as (x & M & H). inversion H as [H0]. cbn [ol_words] in *.
    apply mapM_ok in M. eapply Forall2_imp; [|exact M]. intros a b. apply wl_stretch_alike.
Qed.
Lemma alike_lines ws ws' : Forall2 alike ws ws' -> measured_all ws' = measured_all ws
  /\ (forall s, end_all ws' s = end_all ws s) /\ (forall s, coh_all ws s -> coh_all ws' s).
Proof.
  induction 1 as [|a b ws ws' (A1 & A2 & A3 & _) _ (I1 & I2 & I3)]; [auto|]. split; [|split].
  - unfold measured_all in *. cbn. rewrite A1, I1. reflexivity.
  - intros s. rewrite !end_all_cons, A2. apply I2.
  - intros s (H1 & H2). split; auto. rewrite A2. auto.
Qed.
Lemma rows_text boxes width ragged t k i fs ls : Forall good_frag fs -> rows boxes width ragged t k i fs ls ->
  conserves (map (fun l => measured_all (ol_words l)) ls) (measured_all (map fr_txt fs))
  /\ (Forall loses_nothing fs -> forall s, coh_all (map frag_word fs) s ->
      coh_all (flat_map ol_words ls) s /\ end_all (flat_map ol_words ls) s = end_all (map frag_word fs) s)
  /\ List.length ls <= List.length fs.
Proof.
  intros G. assert (ONE : forall sl adj l, Forall good_frag sl -> made_line ragged sl adj l ->
    is_line_of (measured_all (map fr_txt sl)) (measured_all (ol_words l))
    /\ (Forall loses_nothing sl -> forall s, coh_all (map frag_word sl) s ->
        coh_all (ol_words l) s /\ end_all (ol_words l) s = end_all (map frag_word sl) s)).
  { clear. intros sl adj l G H. assert (H' := H). destruct H as (ws & LW & _).
    destruct (alike_lines _ _ (made_line_alike _ _ _ _ _ LW H')) as (A1 & A2 & A3).
    destruct (line_words_spec _ _ G LW) as (L1 & L2). rewrite A1. split; auto.
    intros LN s C. destruct (L2 (or_introl LN) s C) as (L3 & L4). rewrite A2. auto. }
  induction 1 as [k i sl l q adj NE LE LR EA LT ML RC|k i sl rest l ls q NE NR LR LT WI ML RC R IH].
  - destruct (ONE _ _ _ G ML) as (O1 & O2). cbn [map flat_map]. rewrite app_nil_r. split; [apply conserves_one, O1|]. split; auto.
    destruct sl; [congruence|cbn; lia].
  - apply Forall_app in G as (G1 & G2). destruct (ONE _ _ _ G1 ML) as (O1 & O2). destruct (IH G2) as (I1 & I2 & I3).
    rewrite !map_app, measured_all_app, !app_length. cbn [map flat_map List.length]. split; [|split].
    + apply (conserves_app [_]); auto using conserves_one.
    + intros LN s C. apply Forall_app in LN as (LN1 & LN2). apply coh_all_app in C as (C1 & C2).
      destruct (O2 LN1 s C1) as (P1 & P2). rewrite <- P2 in C2. destruct (I2 LN2 _ C2) as (P3 & P4).
      rewrite !end_all_app, P4, <- P2. split; auto. apply coh_all_app. auto.
    + destruct sl; [congruence|cbn; lia].
Qed.

(** ** Termination *)
Lemma visit_err width t P ragged nodes p b bn g e : visit width t P ragged nodes p b bn g = Err e ->
  exists n, node_ratio width ragged n b = Err e.
Proof.
  revert g. induction nodes as [|n ns IH]; intros g; cbn; [discriminate|].
  destruct (node_ratio width ragged n b) as [r|e'] eqn:E; cbn; [apply IH|]. intros [= <-]. eauto.
Qed.
Lemma scan_err width t P ragged rest : forall b p g e, scan width t P ragged b rest p g = Err e ->
  e = ENoFeasible \/ exists n x, In x (b :: rest) /\ node_ratio width ragged n x = Err e.
Proof.
  induction rest as [|bn rest IH]; intros b p g e; cbn; [discriminate|].
  destruct (kb_no_break b).
  - intros H. destruct (IH _ _ _ _ H) as [->|(n & x & I & R)]; auto. right. exists n, x. cbn in *. auto.
  - destruct g as [|n0 g]; [intros [= <-]; auto|].
    destruct (visit width t P ragged (n0 :: g) p b bn (n0 :: g)) as [g'|e'] eqn:E; cbn.
    + intros H. destruct (IH _ _ _ _ H) as [->|(n & x & I & R)]; auto. right. exists n, x. cbn in *. auto.
    + intros [= <-]. right. destruct (visit_err _ _ _ _ _ _ _ _ _ _ E) as (n & R). exists n, b. split; [left; auto|auto].
Qed.
Lemma end_options_err width P ragged nodes b pos e : end_options width P ragged nodes b pos = Err e ->
  exists n, node_ratio width ragged n b = Err e.
Proof.
  induction nodes as [|n ns IH]; cbn; [discriminate|].
  destruct (node_ratio width ragged n b) as [r|e'] eqn:E; cbn; [|intros [= <-]; eauto].
  destruct (end_options width P ragged ns b pos); cbn; [discriminate|]. intros [= <-]. auto.
Qed.
Lemma node_ratio_err width ragged n b e : node_ratio width ragged n b = Err e -> e = EZeroDiv.
Proof.
  unfold node_ratio, ratio_fn. destruct ragged.
  - unfold ratio_ragged, pdiv. destruct (nleb _ _); [destruct (neqb _ _)|]; congruence.
  - unfold ratio_justified, pdiv. destruct (neqb _ _); [|discriminate]. destruct (neqb _ _); [discriminate|].
    destruct (neqb _ _); cbn; congruence.
Qed.
Lemma scan_last width t P ragged rest : forall b p g g' l pos, scan width t P ragged b rest p g = Ok (g', l, pos) -> In l (b :: rest).
Proof.
  induction rest as [|bn rest IH]; intros b p g g' l pos; cbn; [intros [= _ <- _]; auto|].
  destruct (kb_no_break b); [intros H; right; eapply IH; eauto|].
  destruct g; [discriminate|]. destruct (visit _ _ _ _ _ _ _ _ _); cbn; [|discriminate]. intros H. right. eapply IH; eauto.
Qed.
Lemma optimum_fit_err width t P ragged bs e : optimum_fit width t P ragged bs = Err e ->
  e = ENoFeasible \/ exists n x, In x bs /\ node_ratio width ragged n x = Err e.
Proof.
  destruct bs as [|b rest]; cbn; [discriminate|].
  destruct (scan width t P ragged b rest 1 [Root]) as [((g & l) & pos)|e'] eqn:E; cbn.
  - destruct (end_options width P ragged g l pos) as [opts|e'] eqn:O; cbn.
    + destruct opts; intros [= <-]; auto.
    + intros [= <-]. right. destruct (end_options_err _ _ _ _ _ _ _ O) as (n & R). exists n, l. split; auto. eapply scan_last; eauto.
  - intros [= <-]. destruct (scan_err _ _ _ _ _ _ _ _ _ E) as [->|(n & x & I & R)]; eauto.
Qed.
Lemma try_fit_err ts width P ragged bs e : try_fit ts width P ragged bs = Err e -> e = ERuntime \/ e = EZeroDiv.
Proof.
  induction ts as [|t ts IH]; cbn; [intros [= <-]; auto|].
  destruct (optimum_fit width t P ragged bs) as [x|e'] eqn:E; [discriminate|].
  destruct (optimum_fit_err _ _ _ _ _ _ E) as [->|(n & x & _ & R)]; [auto|].
  apply node_ratio_err in R. subst. intros [= <-]. auto.
Qed.
Lemma lay_not_fuel frags boxes ragged tolerance P q : lay frags boxes ragged tolerance P q <> Err EFuel.
Proof.
  unfold lay. intros H. destruct (find_breaks boxes (line_length q) ragged tolerance P) as [brs|e] eqn:E; cbn in H.
  - assert (LW : forall fs e, line_words fs = Err e -> e = EValue).
    { intros fs e. unfold line_words. destruct (rev fs); [congruence|]. destruct (fr_break f); [discriminate|]. destruct (rev _); discriminate. }
    assert (LR : forall brs prev e, lines_ragged prev brs frags = Err e -> e = EValue).
    { induction brs0 as [|br brs0 IH]; intros prev e; cbn; [discriminate|].
      destruct (line_words _) eqn:E1; cbn; [|intros [= <-]; eauto]. destruct (lines_ragged _ _ _) eqn:E2; cbn; [discriminate|]. intros [= <-]. eauto. }
    assert (ST : forall w x e, wl_stretch_tail w x = Err e -> e <> EFuel).
    { induction w as [b|w|w IH c]; intros x e; cbn; [discriminate| |].
      - unfold word_stretch_tail. destruct (w_tail w); [|discriminate]. destruct (neqb _ _); cbn; [discriminate|].
        unfold tspace_stretch, pdiv. destruct (neqb _ _); cbn; congruence.
      - destruct (wl_tail w); [|discriminate]. destruct (wl_stretch_tail w x) eqn:E1; cbn; [discriminate|]. intros [= <-]. eauto. }
    assert (SM : forall ws x e, mapM (fun w => wl_stretch_tail w x) ws = Err e -> e <> EFuel).
    { induction ws as [|w ws IH]; intros x e; cbn; [discriminate|]. destruct (wl_stretch_tail w x) eqn:E1; cbn; [|intros [= <-]; eauto].
      destruct (mapM _ ws) eqn:E2; cbn; [discriminate|]. intros [= <-]. eauto. }
    assert (SA : forall brs ls e, stretch_all brs ls = Err e -> e <> EFuel).
    { induction brs0 as [|br brs0 IH]; intros [|l ls] e; cbn; try discriminate.
      destruct (oline_stretch l (br_adjust br)) eqn:E1; cbn.
      - destruct (stretch_all brs0 ls) eqn:E2; cbn; [discriminate|]. intros [= <-]. eauto.
      - intros [= <-]. unfold oline_stretch in E1. destruct (mapM _ _) eqn:E2 in E1; cbn in E1; [discriminate|]. inversion E1; subst. eauto. }
    unfold into_lines in H. destruct (lines_ragged 0 brs frags) eqn:E1; cbn in H; [|apply LR in E1; congruence].
    destruct ragged; [discriminate|]. eapply SA; eauto.
  - inversion H; subst. unfold find_breaks in E. destruct boxes; [discriminate|]. apply try_fit_err in E. destruct E; discriminate.
Qed.

Lemma groups_len {A} (gs : list (list A)) : (forall m g, nth_error gs m = Some g -> g <> []) ->
  List.length gs <= List.length (concat gs).
Proof.
  induction gs as [|g gs IH]; intros H; cbn; auto. rewrite app_length.
  pose proof (H 0 g eq_refl). specialize (IH (fun m => H (S m))). destruct g; [congruence|]. cbn; lia.
Qed.
Lemma repair_not_fuel frags boxes ragged tolerance P N d cols lead ae :
  (forall q ls, lay frags boxes ragged tolerance P q = Ok ls -> List.length ls <= N) ->
  forall fuel groups q, queue_ok cols lead ae d q -> laid frags boxes ragged tolerance P q groups ->
  (q_counts q N <= Z.of_nat fuel)%Z ->
  repair frags boxes ragged tolerance P fuel groups q <> Err EFuel.
Proof.
  intros LN. induction fuel as [|fuel IH]; intros groups q Q L F H.
  - destruct Q as (A & _). pose proof (asc_ge _ N A). lia.
  - cbn [repair] in H. destruct (rev groups) as [|last [|prev rest]] eqn:R; [discriminate|discriminate|].
    destruct (rev_two _ _ _ _ R) as (N1 & _ & LE).
    destruct (_ && _ && _) eqn:C in H; [|discriminate].
    apply andb_true_iff in C as (C & C3). apply andb_true_iff in C as (C1 & C2).
    destruct (laid_groups _ _ _ _ _ _ _ _ _ _ _ _ _ Q L N1) as (_ & B1).
    set (q' := shorten_column q (List.length groups - 2)) in *.
    assert (Q' : queue_ok cols lead ae d q'). { apply shorten_ok; auto. lia. }
    assert (ML : List.length groups <= N).
    { destruct L as (ls & E1 & E2). destruct Q as (A & _). destruct (per_column_spec ls q A) as (gs & E3 & E4 & _ & E5).
      rewrite E2 in E3. inversion E3; subst gs. etransitivity; [|apply (LN _ _ E1)]. rewrite <- E4.
      apply groups_len. intros m g Hm. apply (E5 m g Hm). }
    assert (F' : (q_counts q' N <= Z.of_nat fuel)%Z).
    { unfold q'. cbn [shorten_column q_counts]. destruct (_ <=? N) eqn:X; lia. }
    destruct (lay frags boxes ragged tolerance P q') as [ls|e] eqn:E1; cbn [bind] in H; [|inversion H; subst; eapply lay_not_fuel; eauto].
    destruct (per_column_spec ls q' (proj1 Q')) as (gs & E3 & _). rewrite E3 in H. cbn [bind] in H.
    assert (L' : laid frags boxes ragged tolerance P q' gs) by (exists ls; auto).
    destruct (rev gs) as [|l' rs]; [eapply IH; eauto|].
    destruct (_ && _) in H; [discriminate|eapply IH; eauto].
Qed.
Lemma words_boxes_not_fuel just ws : forall w st sh, words_boxes just ws w st sh <> Err EFuel.
Proof.
  induction ws as [|x ws IH]; intros w st sh; cbn; [discriminate|].
  destruct (word_boxes just x w st sh) as [(((l & w') & st') & sh')|e] eqn:E; cbn.
  - destruct (words_boxes just ws w' st' sh') eqn:E2; cbn; [discriminate|]. intros [= ->]. eapply IH; eauto.
  - intros [= ->]. unfold word_boxes in E. destruct (unwrap x) as (y & c). destruct (chunk_boxes _ _ _ _).
    destruct (wl_tail y); [discriminate|]. destruct (rev (wl_boxes y)); discriminate.
Qed.
Lemma into_boxes_len ws just frags boxes : into_boxes ws just = Ok (frags, boxes) -> List.length frags = List.length boxes.
Proof. unfold into_boxes. intros H. apply rmap_inv in H as (l & _ & H). inversion H. rewrite !map_length. reflexivity. Qed.
Lemma into_boxes_good ws just frags boxes : Forall flat ws -> into_boxes ws just = Ok (frags, boxes) ->
  measured_all (map fr_txt frags) = measured_all ws
  /\ (forall s, coh_all ws s -> coh_all (map frag_word frags) s /\ end_all (map frag_word frags) s = end_all ws s)
  /\ Forall good_frag frags
  /\ (ws <> [] -> boxes <> [])
  /\ (forall f, In f frags -> fr_break f = None ->
        exists x, w_boxes x = [] /\ (In (with_cmd (WWord x) (fr_cmd f)) ws \/ In (WCmd (WWord x) (fr_cmd f)) ws)).
Proof.
  unfold into_boxes. intros F H. apply rmap_inv in H as (l & E & H). inversion H; subst.
  destruct (words_boxes_makes just ws F _ _ _ _ E) as (A & B & C & D & G). repeat (split; [assumption|]).
  split; auto. intros N. specialize (D N). destruct l; [congruence|discriminate].
Qed.
Lemma rows_len boxes width ragged t k i fs ls : rows boxes width ragged t k i fs ls -> List.length ls <= List.length fs.
Proof.
  induction 1; cbn [List.length]; [destruct sl; [congruence|cbn; lia]|].
  rewrite app_length. destruct sl; [congruence|cbn; lia].
Qed.
Lemma opt_shape_terminates ws cols (ae : bool) (lead : num) (avoid ragged : bool) tolerance P :
  (forall i, (0 <= nfloordiv (snd (cols i)) lead)%Z) ->
  exists n, forall fuel, n <= fuel -> opt_shape fuel ws cols ae lead avoid ragged tolerance P <> Err EFuel.
Proof.
  intros ROOMY.
  destruct (into_boxes ws (negb ragged)) as [(frags & boxes)|e] eqn:E.
  2:{ exists 0. intros fuel _ H. unfold opt_shape in H. rewrite E in H. cbn in H. inversion H; subst.
      unfold into_boxes in E. destruct (words_boxes _ _ _ _ _) eqn:E2; cbn in E; [discriminate|]. inversion E; subst. eapply words_boxes_not_fuel; eauto. }
  assert (LF := into_boxes_len _ _ _ _ E).
  assert (LN : forall q ls, lay frags boxes ragged tolerance P q = Ok ls -> List.length ls <= List.length frags).
  { intros q ls H. destruct (lay_rows _ _ _ _ _ _ _ LF H) as (t & _ & R). eapply rows_len; eauto. }
  set (N := List.length frags) in *.
  set (q0 := queue_new cols lead ae). set (q1 := queue_new (fun i => cols (S i)) lead false).
  exists (Z.to_nat (q_counts q0 N) + Z.to_nat (q_counts q1 N) + Z.to_nat (q_counts (remove_first_column q0) N)
          + Z.to_nat (q_counts (remove_first_column q1) N)).
  intros fuel F H. unfold opt_shape in H. rewrite E in H. cbn [bind] in H. destruct (neqb lead n0); [discriminate|].
  fold q0 in H. fold q1 in H.
  assert (X : exists (d : nat) (q : queue), (if (q_counts q0 O =? 0)%Z then ([[]], q1) else ([], q0)) = (repeat (@nil oline) d, q)
     /\ queue_ok cols lead ae d q /\ (q = q0 \/ q = q1)).
  { destruct (q_counts q0 O =? 0)%Z eqn:Z; cbn [q0 queue_new q_counts count_to] in Z.
    - exists 1, q1. split; auto. split; auto. apply queue_next_ok; auto.
    - exists 0, q0. split; auto. split; auto. apply queue_new_ok; auto.
      pose proof (room_nonneg cols lead ae ROOMY 0). pose proof (count_incr cols lead ae ROOMY 0). cbn [before count_to] in *. lia. }
  destruct X as (d & q & EQ & Q & QQ). rewrite EQ in H. clear EQ.
  destruct boxes as [|b0 boxes]; [discriminate|].
  destruct (lay frags (b0 :: boxes) ragged tolerance P q) as [ls|e] eqn:E1; cbn [bind] in H; [|inversion H; subst; eapply lay_not_fuel; eauto].
  assert (X : exists d' q' ls', queue_ok cols lead ae d' q' /\ (q' = q \/ q' = remove_first_column q)
     /\ lay frags (b0 :: boxes) ragged tolerance P q' = Ok ls'
     /\ (do groups <- per_column ls' q';
         do groups0 <- (if avoid then repair frags (b0 :: boxes) ragged tolerance P fuel groups q' else Ok groups);
         Ok (repeat [] d' ++ groups0)) = Err EFuel).
  { destruct (_ && _) in H.
    - destruct (lay frags (b0 :: boxes) ragged tolerance P (remove_first_column q)) as [ls'|e] eqn:E2; cbn [bind] in H;
        [|inversion H; subst; exfalso; eapply lay_not_fuel; eauto].
      exists (S d), (remove_first_column q), ls'. split; [apply remove_first_ok; auto|]. split; auto. split; auto.
      destruct (per_column ls' _); cbn in *; auto. destruct (if avoid then _ else _); cbn in *; auto. discriminate.
    - cbn [bind] in H. exists d, q, ls. auto. }
  destruct X as (d' & q' & ls' & Q' & QQ' & L' & H'). clear H.
  destruct (per_column_spec ls' q' (proj1 Q')) as (gs & E3 & _). rewrite E3 in H'. cbn [bind] in H'.
  destruct avoid; [|discriminate].
  destruct (repair frags (b0 :: boxes) ragged tolerance P fuel gs q') as [|e] eqn:RP; cbn [bind] in H'; [discriminate|]. inversion H'; subst e.
  assert (LD : laid frags (b0 :: boxes) ragged tolerance P q' gs) by (exists ls'; auto).
  refine (repair_not_fuel frags (b0 :: boxes) ragged tolerance P N d' cols lead ae LN fuel gs q' Q' LD _ RP).
  pose proof (asc_ge _ N (proj1 Q')). destruct QQ as [->| ->], QQ' as [->| ->]; lia.
Qed.
End Proofs.
