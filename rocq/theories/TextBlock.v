(** * TextBlock: lemmas about text blocks: styles, positions, order of operators. *)
From Coq Require Import QArith Qcanon.
From Verif Require Import Base Num Fonts State Style TextSpec StateProofs Words WordsSpec WordProofs
  Parse Render RenderSpec Show Common Draw DrawSpec.
Open Scope nat_scope.

Section Block.
Context {NUM : Num} {ENV : Env NUM}.

(** The lines fit together: each starts in the state in which the one before ended. *)
Fixpoint lines_coh (ls : list tline) (s : state) : Prop :=
  match ls with
  | [] => True
  | l :: r => coh_all (tl_words l) (apply (tl_cmd l) s)
              /\ lines_coh r (end_all (tl_words l) (apply (tl_cmd l) s))
  end.
Definition lines_chars (ls : list tline) : list schar := flat_map (fun l => measured_all (tl_words l)) ls.
Definition shows_all (os : list op) (s : state) (cs : list schar) : Prop :=
  forall v, agree v s -> shown_chars (fst (view v os)) = map want cs.

Lemma agree_move v s x y : agree v s -> agree (vmove v x y) s.
Proof. intros H. exact H. Qed.
Lemma view_cons v o r : (forall l, o <> OTJ l) -> fst (view v (o :: r)) = fst (view (vstep v o) r).
Proof.
  intros H. cbn [view]. destruct (view (vstep v o) r) as [out v']. destruct o; try reflexivity.
  exfalso. eapply H; reflexivity.
Qed.
Lemma view_app1 v a b : fst (view v (a ++ b)) = fst (view v a) ++ fst (view (snd (view v a)) b).
Proof. rewrite view_app. reflexivity. Qed.
Lemma render_lines_shows a ls lead : forall width s, lines_coh ls s ->
  shows_all (render_lines a ls lead width) s (lines_chars ls).
Proof.
  assert (L : forall s, lines_coh ls s ->
    shows_all (flat_map (fun l => OTstar :: tline_ops l) ls) s (lines_chars ls)).
  { induction ls as [|l ls IH]; intros s C v A; [reflexivity|]. cbn [flat_map lines_chars app]. destruct C as [C1 C2].
    rewrite view_cons by discriminate. cbn [vstep]. apply (agree_move v s n0 (nneg (v_lead v))) in A.
    rewrite view_app1, shown_chars_app. destruct (tline_shows l _ s A C1) as (E & A2 & _).
    rewrite E, (IH _ C2 _ A2). symmetry. apply map_app. }
  assert (CR : forall (f : num -> num -> num) s prev, lines_coh ls s ->
    shows_all ((fix go ls prev := match ls with [] => [] | l :: r => OTD (f prev (tl_width l)) (nneg lead) :: tline_ops l ++ go r (tl_width l) end) ls prev) s (lines_chars ls)).
  { clear L. intros f. induction ls as [|l ls' IH]; intros s prev C v A; [reflexivity|]. cbn [lines_chars flat_map]. destruct C as [C1 C2].
    rewrite view_cons by discriminate. cbn [vstep].
    assert (A1 : agree (vmove (vlead v (nneg (nneg lead))) (f prev (tl_width l)) (nneg lead)) s) by exact A.
    rewrite view_app1, shown_chars_app. destruct (tline_shows l _ s A1 C1) as (E & A2 & _).
    rewrite E. rewrite IH with (s := end_all (tl_words l) (apply (tl_cmd l) s)); [symmetry; apply map_app|exact C2|exact A2]. }
  intros width s C. destruct a; cbn [render_lines].
  - intros v A. unfold render_left. rewrite view_cons by discriminate. apply (L s C). exact A.
  - replace (render_centered ls lead width) with
      ((fix go ls prev := match ls with [] => [] | l :: r => OTD ((fun p w => ndiv (nsub p w) (nZ 2)) prev (tl_width l)) (nneg lead) :: tline_ops l ++ go r (tl_width l) end) ls width).
    + apply (CR (fun p w => ndiv (nsub p w) (nZ 2))), C.
    + clear. revert width. induction ls as [|l ls IH]; intros w; [reflexivity|]. cbn [render_centered]. rewrite <- IH. reflexivity.
  - replace (render_right ls lead width) with
      ((fix go ls prev := match ls with [] => [] | l :: r => OTD (nsub prev (tl_width l)) (nneg lead) :: tline_ops l ++ go r (tl_width l) end) ls width).
    + apply (CR nsub), C.
    + clear. revert width. induction ls as [|l ls IH]; intros w; [reflexivity|]. cbn [render_right]. rewrite <- IH. reflexivity.
  - intros v A. unfold render_left. rewrite view_cons by discriminate. apply (L s C). exact A.
Qed.
(** the whole block, from any state of the reader *)
Lemma render_text_shows x y s width ls ld a v : lines_coh ls s ->
  shown_chars (fst (view v (render_text x y (Some s) width ls ld a))) = map want (lines_chars ls).
Proof.
  intros C. unfold render_text. cbn [state_ops app].
  do 4 rewrite view_cons by discriminate. rewrite view_app1, shown_chars_app.
  rewrite view_cons by discriminate. cbn [view fst]. cbn [shown_chars flat_map]. rewrite app_nil_r.
  apply (render_lines_shows a ls ld width s C). repeat split.
Qed.

(** ** The order of operators *)
Lemma levels_app l a b : levels l (a ++ b) = match levels l a with Some l' => levels l' b | None => None end.
Proof.
  revert l; induction a as [|o a IH]; intros l; [reflexivity|]. cbn [app levels].
  destruct (level_step l o); [apply IH|reflexivity].
Qed.
Definition in_text (os : list op) : Prop := levels LText os = Some LText.
Lemma in_text_app a b : in_text a -> in_text b -> in_text (a ++ b).
Proof. unfold in_text. intros A B. rewrite levels_app, A. exact B. Qed.
Lemma in_text_cmd c : in_text (cmd_ops c).
Proof.
  induction c as [| f z | x | c | h | l IH] using command_ind'; try reflexivity.
  cbn [cmd_ops]. induction IH as [|c l Hc _ IHl]; [reflexivity|]. cbn [flat_map]. apply in_text_app; assumption.
Qed.
Lemma in_text_tj i r : in_text r -> in_text (OTJ i :: r).
Proof. intros H. exact H. Qed.
Lemma in_text_segs l : forall ln, in_text (fst (segs_into_line l ln)).
Proof.
  induction l as [|[x c] l IH]; intros ln; cbn [segs_into_line]; [reflexivity|].
  specialize (IH []). destruct (segs_into_line l []) as [o ln']. cbn [fst] in *.
  apply in_text_tj, in_text_app; [apply in_text_cmd|exact IH].
Qed.
Lemma in_text_box b ln : in_text (fst (box_into_line b ln)).
Proof. destruct b; cbn; [reflexivity|apply in_text_segs]. Qed.
Lemma in_text_boxes l : forall ln, in_text (fst (boxes_into_line l ln)).
Proof.
  induction l as [|b l IH]; intros ln; cbn [boxes_into_line]; [reflexivity|].
  pose proof (in_text_box b ln) as H. destruct (box_into_line b ln) as [o1 ln1].
  specialize (IH ln1). destruct (boxes_into_line l ln1). cbn [fst] in *. apply in_text_app; assumption.
Qed.
Lemma in_text_wl w : forall ln, in_text (fst (into_line w ln)).
Proof.
  induction w as [b|w|w IH c]; intros ln; cbn [into_line].
  - apply in_text_box.
  - unfold word_into_line. pose proof (in_text_boxes (w_boxes w) ln) as H.
    destruct (boxes_into_line (w_boxes w) ln). exact H.
  - specialize (IH ln). destruct (into_line w ln). cbn [fst] in *.
    apply in_text_app; [exact IH|]. apply in_text_tj, in_text_cmd.
Qed.
Lemma in_text_words l : forall ln, in_text (fst (words_into_line l ln)).
Proof.
  induction l as [|w l IH]; intros ln; cbn [words_into_line]; [reflexivity|].
  pose proof (in_text_wl w ln) as H. destruct (into_line w ln) as [o1 ln1].
  specialize (IH ln1). destruct (words_into_line l ln1). cbn [fst] in *. apply in_text_app; assumption.
Qed.
Lemma in_text_tline l : in_text (tline_ops l).
Proof.
  unfold tline_ops. apply in_text_app; [apply in_text_cmd|]. unfold line_ops.
  pose proof (in_text_words (tl_words l) []) as H. destruct (words_into_line (tl_words l) []) as [o ln].
  apply in_text_app; [exact H|reflexivity].
Qed.
Lemma in_text_lines a ls ld : forall w, in_text (render_lines a ls ld w).
Proof.
  assert (L : in_text (render_left ls ld)).
  { unfold render_left. change (in_text (flat_map (fun l => OTstar :: tline_ops l) ls)).
    induction ls as [|l ls IH]; [reflexivity|]. cbn [flat_map]. apply in_text_app; [exact (in_text_tline l)|exact IH]. }
  destruct a; cbn [render_lines]; intros w; try exact L.
  - clear L. revert w. induction ls as [|l ls IH]; intros w; [reflexivity|]. cbn [render_centered].
    change (in_text (tline_ops l ++ render_centered ls ld (tl_width l))). apply in_text_app; [apply in_text_tline|apply IH].
  - clear L. revert w. induction ls as [|l ls IH]; intros w; [reflexivity|]. cbn [render_right].
    change (in_text (tline_ops l ++ render_right ls ld (tl_width l))). apply in_text_app; [apply in_text_tline|apply IH].
Qed.
Lemma render_text_ordered x y st w ls ld a : well_ordered (render_text x y st w ls ld a).
Proof.
  unfold well_ordered, render_text. cbn [levels level_step]. rewrite !levels_app.
  replace (levels LText match st with Some s => state_ops s | None => [] end) with (Some LText) by (destruct st; reflexivity).
  rewrite levels_app. rewrite (in_text_lines a ls ld w : levels LText _ = _). reflexivity.
Qed.

(** ** Lines of a text *)
Definition begins_text (t : str) : Prop :=
  match t with [] => False | 10 :: _ => False | 13 :: 10 :: _ => False | _ => True end%N.
(** a group of passages made from strings that begin with text: its first passage may
    be the rest of a string after a line break *)
Definition text_group (g : list passage) : Prop :=
  exists c t r, g = (c, t) :: r /\ Forall (fun p : passage => snd p <> []) r /\ (t = [] -> c = NoOp).
Lemma begins_split t b r : begins_text t -> split_newline t = Some (b, r) -> b <> [].
Proof.
  intros B E C. subst b. destruct t as [|c t]; [contradiction|]. cbn in E.
  destruct (N.eqb_spec c 10) as [->|N10]; [exact B|].
  destruct t as [|d t]; [discriminate|].
  destruct ((c =? 13) && (d =? 10))%N eqn:E1.
  - apply andb_true_iff in E1 as [E1 E2]. apply N.eqb_eq in E1, E2. subst. exact B.
  - destruct (split_newline (d :: t)) as [[x y]|]; discriminate.
Qed.
Lemma begins_nonempty t : begins_text t -> t <> [].
Proof. destruct t; [contradiction|discriminate]. Qed.
Lemma group_text it : forall fuel cmd txt cont,
  Forall (fun p => begins_text (snd p)) it -> (cont = false -> begins_text txt) ->
  let '(g, nxt) := group (S fuel) cmd txt cont it in
  text_group g /\ match nxt with Some (_, _, it') => Forall (fun p => begins_text (snd p)) it' | None => True end.
Proof.
  assert (R : forall it fuel cmd txt, Forall (fun p => begins_text (snd p)) it -> begins_text txt ->
    let '(g, nxt) := group fuel cmd txt false it in
    Forall (fun p : passage => snd p <> []) g /\ match nxt with Some (_, _, it') => Forall (fun p => begins_text (snd p)) it' | None => True end).
  { clear it. intros it fuel. revert it. induction fuel as [|fuel IH]; intros it cmd txt F B; cbn [group]; [split; [constructor|exact I]|].
    destruct (split_newline txt) as [[b r]|] eqn:E.
    - split; [|exact F]. constructor; [|constructor]. eapply begins_split; eauto.
    - destruct it as [|[c' t'] it'].
      + split; [|exact I]. constructor; [|constructor]. apply begins_nonempty, B.
      + inversion F; subst. specialize (IH it' c' t' ltac:(assumption) ltac:(assumption)).
        destruct (group fuel c' t' false it') as [g nxt]. destruct IH as [IH1 IH2]. split; [|exact IH2].
        constructor; [apply begins_nonempty, B|exact IH1]. }
  intros fuel cmd txt cont F B. cbn [group].
  destruct (split_newline txt) as [[b r]|] eqn:E.
  - split; [|exact F]. eexists _, _, []. split; [reflexivity|]. split; [constructor|].
    intros ->. destruct cont; [reflexivity|]. exfalso. eapply begins_split; eauto.
  - destruct it as [|[c' t'] it'].
    + split; [|exact I]. eexists _, _, []. split; [reflexivity|]. split; [constructor|].
      intros ->. destruct cont; [reflexivity|]. exfalso. apply (begins_nonempty []); auto.
    + inversion F; subst. specialize (R it' fuel c' t' ltac:(assumption) ltac:(assumption)).
      destruct (group fuel c' t' false it') as [g nxt]. destruct R as [R1 R2]. split; [|exact R2].
      eexists _, _, g. split; [reflexivity|]. split; [exact R1|].
      intros ->. destruct cont; [reflexivity|]. exfalso. apply (begins_nonempty []); auto.
Qed.
Lemma splitlines_text_groups ps : Forall (fun p => begins_text (snd p)) ps ->
  Forall text_group (splitlines ps).
Proof.
  intros F. destruct ps as [|[cmd txt] it]; [constructor|]. unfold splitlines.
  assert (G : forall fuel cmd txt cont (it : list passage), Forall (fun p : passage => begins_text (snd p)) it ->
     (cont = false -> begins_text txt) -> Forall text_group (groups fuel cmd txt cont it)).
  { clear. induction fuel as [|fuel IH]; intros cmd txt cont it F B; [constructor|]. cbn [groups].
    pose proof (group_text it (@List.length passage it) cmd txt cont F B) as H.
    destruct (group (S (@List.length passage it)) cmd txt cont it) as [g nxt]. destruct H as [H1 H2].
    constructor; [exact H1|]. destruct nxt as [[[c' t'] it']|]; [|constructor].
    apply IH; [exact H2|discriminate]. }
  inversion F; subst. apply G; [assumption|]. intros _. assumption.
Qed.
Lemma text_group_runs g : text_group g -> runs_ok g.
Proof.
  intros (c & t & r & -> & F & N) a run b E HF s.
  destruct a as [|p a].
  - cbn [app] in E. destruct run as [|p [|q run]]; [reflexivity|reflexivity|].
    cbn [app] in E. injection E as <- E. cbn [removelast] in HF.
    destruct run as [|q2 run].
    + cbn [map]. inversion HF; subst. cbn in H1. rewrite (N H1). cbn [fst]. unfold squash, apply_all. cbn [fold_left dict_set].
      change (ctag NoOp) with 0. destruct (ctag (fst q)) eqn:Et; cbn [Nat.eqb].
      * destruct (fst q); try discriminate. reflexivity.
      * reflexivity.
    + exfalso. inversion HF; subst. inversion H2; subst. inversion F; subst. congruence.
  - cbn [app] in E. injection E as <- E. subst r. apply Forall_app in F as [_ F]. apply Forall_app in F as [F _].
    destruct run as [|q [|q2 run]]; [reflexivity|reflexivity|]. exfalso. inversion HF; subst. inversion F; subst. congruence.
Qed.
Lemma text_group_words g st : all_split -> text_group g ->
  exists cmd ws, into_words g st = Ok (cmd, ws, true)
    /\ measured_all ws = styled g st /\ coh_all ws (apply cmd st)
    /\ end_all ws (apply cmd st) = end_state g st
    /\ (ws = [] -> cmd = NoOp).
Proof.
  intros HY T. destruct (into_words_spec g st HY) as (cmd & ws & ex & a & b & E & EP & M & C & X).
  destruct (C (text_group_runs g T)) as [C1 C2]. destruct T as (c & t & r & -> & F & N).
  destruct ex.
  - subst b. rewrite app_nil_r in EP. subst a. exists cmd, ws. split; [exact E|]. split; [exact M|]. split; [exact C2|].
    split; [exact C1|]. intros ->.
    unfold into_words in E. cbn [fold_commands] in E. destruct t as [|ch t].
    + rewrite (N eq_refl) in E. destruct r as [|[c2 t2] r].
      * cbn in E. injection E as <-. reflexivity.
      * inversion F; subst. cbn in H1. cbn in M. destruct t2; [congruence|]. discriminate.
    + cbn in M. discriminate.
  - exfalso. destruct X as (a' & c0 & -> & B). destruct a' as [|p a'].
    + cbn in B. discriminate.
    + cbn [app] in EP. injection EP as _ EP. subst r. rewrite <- app_assoc in F. apply Forall_app in F as [_ F].
      inversion F; subst. cbn in *. congruence.
Qed.
Lemma text_lines_ok gs : all_split -> Forall text_group gs -> forall st,
  exists ls, text_lines gs st = Ok ls /\ lines_coh ls st
    /\ map (fun l => measured_all (tl_words l)) ls = styled_groups gs st
    /\ Forall (fun l => tl_width l = nsum (map wl_width (tl_words l))) ls.
Proof.
  intros HY. induction 1 as [|g gs G _ IH]; intros st; cbn [text_lines].
  - exists []. repeat split. constructor.
  - destruct (text_group_words g st HY G) as (cmd & ws & E & M & C & EN & Z). rewrite E. cbn [bind].
    assert (S' : match rev ws with w :: _ => wl_state w | [] => st end = end_state g st).
    { rewrite <- EN. unfold end_all. destruct (rev ws) eqn:R; [|reflexivity].
      rewrite Z; [reflexivity|]. rewrite <- (rev_involutive ws), R. reflexivity. }
    rewrite S'. destruct (IH (end_state g st)) as (ls & E2 & C2 & M2 & W2). rewrite E2. cbn [bind].
    eexists. split; [reflexivity|]. cbn [lines_coh tl_cmd tl_words map styled_groups]. split; [|split].
    + split; [exact C|]. rewrite EN. exact C2.
    + rewrite M, M2. reflexivity.
    + constructor; [reflexivity|exact W2].
Qed.
End Block.
