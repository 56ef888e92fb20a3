(** * Property C88: first-fit lines are as full as possible.
    Specification: GreedySpec (widths of runs of pieces, full lines, other ways to cut the
    text), with the pieces of OptimalSpec. *)
From Coq Require Import QArith Qcanon Qround Lqa String.
From Verif Require Import Base Gfmt FontSpec FontProofs Num Fonts State TextSpec StateProofs
  Words WordsSpec WordProofs WordOps Parse Render RenderSpec RenderProofs WordWidth LineSpec Firstfit FirstfitProofs FirstfitWidth
  KnuthPlass KPSpec KPProofs Properties_KnuthPlass Optimum OptimumProofs OptimumWidth OptimumLines OptimumTotal
  Properties_Words Properties_Firstfit Properties_Optimum OptimalProofs.
From Verif Require Import GreedySpec GreedyProofs.
From Coq Require Import Lia.
Local Open Scope string_scope.
Local Open Scope list_scope.
Open Scope nat_scope.

Lemma pw_good {ENV : Env QcNum} ws : paragraph_words ws -> Forall good ws.
Proof.
  intros P. assert (A := pw_flat _ P). assert (B := pw_ok _ P). assert (C := pw_full _ P).
  rewrite Forall_forall in *. intros w I. split; [apply flat_wordy, A, I|]. split; [apply B, I|apply C, I].
Qed.
Lemma placed_widths {A B} (R : A -> B -> Prop) cs cs' : Forall2 (Forall2 R) cs cs' ->
  forall cols : nat -> @num QcNum * @num QcNum, map fst (placed cols cs) = map fst (placed cols cs').
Proof.
  induction 1 as [|a b cs cs' H _ IH]; intros cols; [reflexivity|]. cbn [placed]. rewrite !map_app, IH, !map_map. f_equal.
  induction H; cbn; [reflexivity|]. f_equal. assumption.
Qed.

(** ** The text is cut into the pieces between which lines may end; every line shows some
    of them, fits in its column, and has no room for the next one as well (whatever the
    columns, with or without orphans avoided, and before the lines are justified). *)
Theorem C88_lines_full : forall (ENV : Env QcNum) fuel ws cols allow_empty lead avoid justified cs,
  paragraph_words ws -> ws <> [] ->
  ff_shape fuel ws cols allow_empty lead avoid justified = Ok cs ->
  exists lns, concat (map snd lns) = pieces ws /\ hd false (map fst lns) = true
    /\ Forall2 (fun ln l => shows_pieces (snd ln) (l_words l)) lns (concat cs)
    /\ all_full (map fst (placed cols cs)) lns
    /\ (justified = false ->
        Forall2 (fun ln l => too_wide (fst l) (fst ln) (snd ln)
                             \/ all_advance (l_words (snd l)) = line_width (fst ln) (snd ln))
          (removelast lns) (removelast (placed cols cs))).
Proof.
  intros ENV fuel ws cols ae lead av ju cs PW NE E.
  assert (G : forall cs, ff_shape fuel ws cols ae lead av false = Ok cs ->
    exists lns, concat (map snd lns) = pieces ws /\ hd false (map fst lns) = true
    /\ Forall2 (fun ln l => shows_pieces (snd ln) (l_words l)) lns (concat cs)
    /\ all_full (map fst (placed cols cs)) lns
    /\ Forall2 (fun ln l => too_wide (fst l) (fst ln) (snd ln)
                             \/ all_advance (l_words (snd l)) = line_width (fst ln) (snd ln))
          (removelast lns) (removelast (placed cols cs))).
  { clear cs E. intros cs E. apply ff_plain in E as (E & _).
    destruct (steps_full _ _ E true (pieces ws) (pw_good _ PW) NE eq_refl) as (lns & S1 & S2 & S3 & S4 & S5).
    exists lns. split; [exact S1|]. split; [exact S2|]. split; [|auto]. rewrite <- (placed_lines cols cs).
    clear - S3. induction S3; constructor; auto. }
  destruct ju.
  - apply ff_justified in E as (cs0 & E0 & F). destruct (G _ E0) as (lns & S1 & S2 & S3 & S4 & _). exists lns.
    split; [exact S1|]. split; [exact S2|]. split; [|split; [rewrite <- (placed_widths _ _ _ F cols); exact S4|discriminate]].
    assert (A : Forall2 (fun l l' => measured_all (l_words l) = measured_all (l_words l')) (concat cs0) (concat cs)).
    { clear -F. induction F as [|a b cs0 cs H _ IH]; cbn; [constructor|]. apply Forall2_app; auto.
      eapply Forall2_impl'; [|exact H]. intros l l' J. apply justify_alike, alike_all in J as (-> & _). reflexivity. }
    clear - A S3. revert lns S3. induction A as [|l l' x y H _ IH]; intros lns S3; inversion S3; subst; constructor; auto.
    unfold shows_pieces in *. rewrite <- H. assumption.
  - destruct (G _ E) as (lns & S1 & S2 & S3 & S4 & S5). exists lns. auto.
Qed.
Print Assumptions C88_lines_full.

(** ** No other way to cut the text into lines that fit in the same columns has fewer
    lines. *)
Theorem C88_fewest_lines : forall (ENV : Env QcNum) fuel ws cols allow_empty lead avoid justified cs,
  paragraph_words ws -> ws <> [] -> parts_narrower (pieces ws) ->
  ff_shape fuel ws cols allow_empty lead avoid justified = Ok cs ->
  forall other, concat other = pieces ws -> fit_in (map fst (placed cols cs)) other ->
  List.length (concat cs) <= List.length other.
Proof.
  intros ENV fuel ws cols ae lead av ju cs PW NE PN E other O1 (O2 & O3).
  destruct (C88_lines_full _ _ _ _ _ _ _ _ _ PW NE E) as (lns & S1 & S2 & S3 & S4 & _).
  rewrite <- (F2_len _ _ _ S3).
  apply (fewest _ PN lns (map fst (placed cols cs)) true other true [] []); auto; cbn [app]; rewrite ?S1; auto.
Qed.
Print Assumptions C88_fewest_lines.
(** A part of a line is not wider than the line, if no hyphen is wider than the syllable
    that follows it and no kerning is wider than the piece before it. *)
Theorem C88_when_tidy : forall (ENV : Env QcNum) pcs, tidy pcs -> parts_narrower pcs.
Proof. intros. apply tidy_narrower. assumption. Qed.
Print Assumptions C88_when_tidy.

(** ** "aBcDe fgHi jk" at 10 points, 5 per character *)
#[local] Existing Instance ex_words.
Fixpoint tidyb (pcs : list piece) : bool :=
  match pcs with
  | p :: (p' :: _) as r =>
      forallb (fun k => forallb (fun k' =>
        Qcleb (piece_end k p) (piece_in k p + piece_end true p')
        && Qcleb (piece_end k' p') (piece_in k p + piece_end true p')
        && Qcleb (piece_in k' p') (piece_in k p + piece_in true p'))%Qc [true; false]) [true; false]
      && tidyb r
  | _ => true
  end.
Lemma tidyb_ok pcs : tidyb pcs = true -> tidy pcs.
Proof.
  intros H a p p' c ->. induction a as [|x a IH].
  - intros k k'. cbn [app tidyb] in H. apply andb_true_iff in H as (H & _).
    rewrite forallb_forall in H. assert (K : In k [true; false]) by (destruct k; cbn; auto). specialize (H k K).
    rewrite forallb_forall in H. assert (K' : In k' [true; false]) by (destruct k'; cbn; auto). specialize (H k' K').
    apply andb_true_iff in H as (H & H3). apply andb_true_iff in H as (H1 & H2). rewrite !Qcleb_le in *. auto.
  - apply IH. destruct a as [|y a]; cbn [app tidyb] in H |- *; apply andb_true_iff in H as (_ & H); exact H.
Qed.
Lemma ex_ws_par : paragraph_words ex_ws.
Proof.
  unfold ex_ws, ex_parse. destruct (into_words _ _) as [[[c ws] ex]|] eqn:E.
  - econstructor. exact E.
  - exfalso. apply (f_equal is_ok) in E. vm_compute in E. discriminate E.
Qed.
(** The paragraph of C34's example: its pieces, in columns of two lines, 20 wide; it takes
    four lines ("aBc-" has no room for "De": that would be 25 wide; "De " none for "fg-").
    Another way to cut it, into five lines that fit, meets the hypotheses as well. *)
Example C88_example :
  paragraph_words ex_ws /\ ex_ws <> [] /\ parts_narrower (pieces ex_ws)
  /\ map (fun p => map fst (measured (pc_in p))) (pieces ex_ws)
     = map str_of ["a"; "Bc"; "De "; "fg"; "Hi "; "jk"]
  /\ rmap (fun cs => List.length (concat cs)) (ff_shape 50 ex_ws (ex_cols 20 25) false (Q2Qc 10) false false) = Ok 4
  /\ rmap (map fst) (rmap (placed (ex_cols 20 25)) (ff_shape 50 ex_ws (ex_cols 20 25) false (Q2Qc 10) false false))
     = Ok (repeat (Q2Qc 20) 4)
  /\ let P := pieces ex_ws in
     let other := [firstn 1 P; firstn 1 (skipn 1 P); firstn 1 (skipn 2 P); firstn 2 (skipn 3 P); skipn 5 P] in
     concat other = P /\ fit_in (repeat (Q2Qc 20) 4) other
  /\ line_width true (firstn 3 P) = Q2Qc 25 /\ line_width false (firstn 2 (skipn 2 P)) = Q2Qc 30.
Proof.
  split; [exact ex_ws_par|]. split; [intros C; apply (f_equal (@List.length _)) in C; vm_compute in C; discriminate C|].
  split; [apply C88_when_tidy, tidyb_ok; vm_compute; reflexivity|].
  split; [vm_compute; reflexivity|]. split; [vm_compute; reflexivity|]. split; [vm_compute; reflexivity|].
  split; [vm_compute; reflexivity|]. split.
  - split; [repeat constructor; intros C; apply (f_equal (@List.length _)) in C; vm_compute in C; discriminate C|].
    apply Forall_forall. intros x. revert x. apply Forall_forall.
    assert (X : forallb (fun x => Qcleb (line_width (fst (snd x)) (snd (snd x))) (fst x))
      (combine (repeat (Q2Qc 20) 4) (flagged [firstn 1 (pieces ex_ws); firstn 1 (skipn 1 (pieces ex_ws));
         firstn 1 (skipn 2 (pieces ex_ws)); firstn 2 (skipn 3 (pieces ex_ws)); skipn 5 (pieces ex_ws)])) = true) by (vm_compute; reflexivity).
    rewrite forallb_forall in X. apply Forall_forall. intros x I. apply Qcleb_le, X, I.
  - split; apply Qc_is_canon; vm_compute; reflexivity.
Qed.
