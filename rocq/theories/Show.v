(** * Show: lemmas about what a reader shows for lines of text. *)
From Coq Require Import QArith Qcanon.
From Verif Require Import Base Num Fonts State TextSpec StateProofs Words WordsSpec WordProofs
  Render RenderSpec.
Open Scope nat_scope.

Section Show.
Context {NUM : Num} {ENV : Env NUM}.

(** the reader's font, size and colour are those of the state *)
Definition agree (v : vstate) (s : state) : Prop :=
  v_font v = Some (st_font s) /\ v_size v = st_size s /\ v_color v = st_color s.
Definition same_pos (v w : vstate) : Prop :=
  v_lead v = v_lead w /\ v_x v = v_x w /\ v_y v = v_y w.
Lemma same_pos_refl v : same_pos v v. Proof. repeat split. Qed.
Lemma same_pos_trans a b c : same_pos a b -> same_pos b c -> same_pos a c.
Proof. intros (A & B & C) (D & E & F). repeat split; congruence. Qed.
Lemma same_pos_sym a b : same_pos a b -> same_pos b a.
Proof. intros (A & B & C). repeat split; congruence. Qed.
(** same_pos: the reader's text matrix is the one at the start of the operators *)
Definition all_at (v : vstate) (l : list shown) : Prop := Forall (fun s => same_pos (sh_v s) v) l.
Lemma all_at_trans v w l : same_pos w v -> all_at w l -> all_at v l.
Proof. intros P. apply Forall_impl. intros s H. eapply same_pos_trans; eauto. Qed.

Lemma view_app v a b : view v (a ++ b) =
  (fst (view v a) ++ fst (view (snd (view v a)) b), snd (view (snd (view v a)) b)).
Proof.
  revert v; induction a as [|o a IH]; intros v; cbn [app view].
  - cbn. destruct (view v b); reflexivity.
  - rewrite IH. destruct (view (vstep v o) a) as [x vx]. cbn [fst snd].
    destruct (view vx b) as [y vy]. cbn [fst snd]. destruct o; reflexivity.
Qed.
Lemma shown_chars_app a b : shown_chars (a ++ b) = shown_chars a ++ shown_chars b.
Proof. apply flat_map_app. Qed.

(** what pending items show in a given state *)
Definition item_chars (i : titem) : list schar := map (fun c => (c, item_state i)) (item_text i).
Definition items_chars (l : list titem) : list schar := flat_map item_chars l.
Definition pending (s : state) (l : list titem) : Prop := Forall (fun i => item_state i = s) l.
Lemma shown_items v s l : agree v s -> pending s l ->
  shown_chars [mkShown v l] = map want (items_chars l).
Proof.
  intros (A & B & C) P. unfold shown_chars. cbn [flat_map sh_items sh_v]. rewrite app_nil_r.
  unfold items_chars. induction P as [|i l Hi _ IH]; [reflexivity|]. cbn [flat_map].
  rewrite map_app, IH. f_equal. unfold item_chars. rewrite map_map. apply map_ext. intros c.
  unfold want. cbn [fst snd]. rewrite Hi, A, B, C. reflexivity.
Qed.

Section CmdInd.
Variable P : command -> Prop.
Hypothesis H0 : P NoOp.
Hypothesis H1 : forall f z, P (SetFont f z).
Hypothesis H2 : forall v, P (SetLineSpacing v).
Hypothesis H3 : forall c, P (SetColor c).
Hypothesis H4 : forall h, P (SetHyphens h).
Hypothesis H5 : forall l, Forall P l -> P (Chain l).
Fixpoint command_ind' (c : command) : P c :=
  match c with
  | NoOp => H0 | SetFont f z => H1 f z | SetLineSpacing v => H2 v | SetColor c => H3 c
  | SetHyphens h => H4 h
  | Chain l => H5 l ((fix go (l : list command) : Forall P l :=
      match l with [] => Forall_nil P | c :: r => Forall_cons c (command_ind' c) (go r) end) l)
  end.
End CmdInd.

Lemma view_cmd c : forall v s, agree v s ->
  fst (view v (cmd_ops c)) = [] /\ agree (snd (view v (cmd_ops c))) (apply c s)
  /\ same_pos (snd (view v (cmd_ops c))) v.
Proof.
  induction c as [| f z | x | c | h | l IH] using command_ind'; intros v s A;
    try (cbn; split; [reflexivity|split; [first [exact A | destruct A as (A1 & A2 & A3); repeat split; first [assumption|reflexivity]]|repeat split]]).
  cbn [cmd_ops]. change (apply (Chain l) s) with (apply_all l s).
  revert v s A. induction IH as [|c l Hc _ IHl]; intros v s A.
  - cbn. split; [reflexivity|]. split; [exact A|apply same_pos_refl].
  - cbn [flat_map]. rewrite view_app. cbn [fst snd]. destruct (Hc v s A) as (E1 & A1 & P1).
    destruct (IHl _ _ A1) as (E2 & A2 & P2). rewrite E1, E2. split; [reflexivity|].
    split; [exact A2|]. eapply same_pos_trans; eauto.
Qed.

(** The state in which the reader is after the operators [o], and the pending
    items [ln'], given pending items [ln] in state [s]. *)
Definition shows (v : vstate) (s : state) (ln : list titem) (o : list op) (ln' : list titem)
  (cs : list schar) (s' : state) : Prop :=
  shown_chars (fst (view v o)) ++ map want (items_chars ln') = map want (items_chars ln ++ cs)
  /\ agree (snd (view v o)) s' /\ pending s' ln' /\ same_pos (snd (view v o)) v
  /\ all_at v (fst (view v o)).
Lemma shows_nil v s ln : agree v s -> pending s ln -> shows v s ln [] ln [] s.
Proof.
  intros A P. unfold shows. cbn. rewrite app_nil_r. repeat split; auto; try apply A. constructor.
Qed.
Lemma shows_app v s ln o1 ln1 c1 s1 o2 ln2 c2 s2 :
  shows v s ln o1 ln1 c1 s1 ->
  (agree (snd (view v o1)) s1 -> pending s1 ln1 -> shows (snd (view v o1)) s1 ln1 o2 ln2 c2 s2) ->
  shows v s ln (o1 ++ o2) ln2 (c1 ++ c2) s2.
Proof.
  intros (E1 & A1 & P1 & S1 & L1) H. destruct (H A1 P1) as (E2 & A2 & P2 & S2 & L2).
  unfold shows. rewrite view_app. cbn [fst snd]. rewrite shown_chars_app, <- app_assoc, E2.
  split.
  { transitivity (map want (items_chars ln ++ c1) ++ map want c2).
    - rewrite <- E1, <- app_assoc. f_equal. apply map_app.
    - rewrite <- map_app. f_equal. symmetry. apply app_assoc. }
  split; [exact A2|]. split; [exact P2|]. split; [eapply same_pos_trans; eauto|].
  apply Forall_app. split; [exact L1|]. eapply all_at_trans; eauto.
Qed.
(** showing the pending items and executing a command *)
Lemma shows_flush v s ln c : agree v s -> pending s ln ->
  shows v s ln (OTJ ln :: cmd_ops c) [] [] (apply c s).
Proof.
  intros A P. change (OTJ ln :: cmd_ops c) with ([OTJ ln] ++ cmd_ops c). unfold shows.
  rewrite view_app. cbn [fst snd view vstep]. destruct (view_cmd c v s A) as (E & A' & S').
  rewrite E, app_nil_r. cbn [items_chars flat_map map]. rewrite !app_nil_r.
  rewrite (shown_items v s ln A P). repeat split; auto; try apply A'; try apply S'.
  - constructor.
  - constructor; [apply same_pos_refl|constructor].
Qed.

Lemma segs_shows l : forall v s ln, l <> [] -> agree v s -> pending s ln -> coh_segs l s ->
  let '(o, ln') := segs_into_line l ln in shows v s ln o ln' (measured_segs l) (end_segs l s).
Proof.
  induction l as [|[x c] l IH]; intros v s ln N A P C; [congruence|].
  cbn [segs_into_line]. destruct C as [Cx C].
  destruct l as [|y l].
  - cbn [segs_into_line]. cbn [measured_segs flat_map fst]. rewrite app_nil_r, app_nil_r.
    assert (P' : pending s (ln ++ [ISlug x])) by (apply Forall_app; split; [exact P|repeat constructor; exact Cx]).
    pose proof (shows_flush v s (ln ++ [ISlug x]) c A P') as H.
    destruct H as (E1 & H). split; [|exact H]. rewrite E1. f_equal. rewrite app_nil_r.
    unfold items_chars. rewrite flat_map_app. cbn [flat_map]. rewrite app_nil_r. reflexivity.
  - assert (NN : y :: l <> []) by discriminate. set (r := y :: l) in *. clearbody r.
    destruct (segs_into_line r []) as [o ln'] eqn:E.
    assert (P' : pending s (ln ++ [ISlug x])) by (apply Forall_app; split; [exact P|repeat constructor; exact Cx]).
    pose proof (shows_flush v s (ln ++ [ISlug x]) c A P') as H.
    assert (H2 : shows v s ln (OTJ (ln ++ [ISlug x]) :: cmd_ops c) [] (measured_slug x) (apply c s)).
    { destruct H as (E1 & H). split; [|exact H]. rewrite E1. f_equal. rewrite app_nil_r.
      unfold items_chars. rewrite flat_map_app. cbn [flat_map]. rewrite app_nil_r. reflexivity. }
    cbn [measured_segs flat_map fst].
    change (OTJ (ln ++ [ISlug x]) :: cmd_ops c ++ o) with ((OTJ (ln ++ [ISlug x]) :: cmd_ops c) ++ o).
    eapply shows_app; [exact H2|]. intros A1 P1.
    specialize (IH (snd (view v (OTJ (ln ++ [ISlug x]) :: cmd_ops c))) (apply c s) [] NN A1 P1 C).
    rewrite E in IH. exact IH.
Qed.
Lemma box_shows b v s ln : agree v s -> pending s ln -> coh_box b s ->
  let '(o, ln') := box_into_line b ln in shows v s ln o ln' (measured_box b) (box_state b).
Proof.
  intros A P C. destruct b as [x|l st]; cbn in C |- *.
  - subst s. unfold shows. cbn [view fst snd shown_chars flat_map app].
    unfold items_chars. rewrite flat_map_app. cbn [flat_map]. rewrite app_nil_r.
    split; [reflexivity|]. split; [exact A|]. split; [|split; [apply same_pos_refl|constructor]].
    apply Forall_app; split; [exact P|repeat constructor].
  - destruct C as (N & C & ->). apply segs_shows; auto.
Qed.
Lemma boxes_shows l : forall v s ln, agree v s -> pending s ln -> coh_boxes l s ->
  let '(o, ln') := boxes_into_line l ln in
  shows v s ln o ln' (flat_map measured_box l) (end_boxes l s).
Proof.
  induction l as [|b l IH]; intros v s ln A P C; cbn [boxes_into_line].
  - cbn. apply shows_nil; auto.
  - destruct C as [C1 C2]. pose proof (box_shows b v s ln A P C1) as H.
    destruct (box_into_line b ln) as [o1 ln1]. destruct (boxes_into_line l ln1) as [o2 ln2] eqn:E.
    cbn [flat_map end_boxes]. eapply shows_app; [exact H|]. intros A1 P1.
    specialize (IH _ _ _ A1 P1 C2). rewrite E in IH. exact IH.
Qed.
Lemma wl_shows w : forall v s ln, agree v s -> pending s ln -> coh w s ->
  let '(o, ln') := into_line w ln in shows v s ln o ln' (measured w) (wl_state w).
Proof.
  induction w as [b|w|w IH c]; intros v s ln A P C; cbn [into_line].
  - apply box_shows; auto.
  - destruct C as [C1 C2]. unfold word_into_line. pose proof (boxes_shows (w_boxes w) v s ln A P C1) as H.
    destruct (boxes_into_line (w_boxes w) ln) as [o ln1]. cbn [measured wl_state].
    rewrite C2 in *. unfold measured_word. rewrite C2. destruct (w_tail w) as [t|]; cbn [measured_tail].
    + rewrite <- (app_nil_r o). eapply shows_app; [exact H|]. intros A1 P1. unfold shows.
      cbn [view fst snd shown_chars flat_map app]. unfold items_chars at 1 2. rewrite flat_map_app.
      cbn [flat_map]. rewrite app_nil_r. split; [reflexivity|]. split; [exact A1|].
      split; [|split; [apply same_pos_refl|constructor]].
      apply Forall_app; split; [exact P1|repeat constructor].
    + rewrite app_nil_r. exact H.
  - pose proof (IH v s ln A P C) as H. destruct (into_line w ln) as [o ln1].
    cbn [measured wl_state]. rewrite <- (app_nil_r (measured w)).
    eapply shows_app; [exact H|]. intros A1 P1. apply shows_flush; auto.
Qed.
Lemma words_shows l : forall v s ln, agree v s -> pending s ln -> coh_all l s ->
  let '(o, ln') := words_into_line l ln in shows v s ln o ln' (measured_all l) (end_all l s).
Proof.
  induction l as [|w l IH]; intros v s ln A P C; cbn [words_into_line].
  - cbn. unfold end_all; cbn. apply shows_nil; auto.
  - destruct C as [C1 C2]. pose proof (wl_shows w v s ln A P C1) as H.
    destruct (into_line w ln) as [o1 ln1]. destruct (words_into_line l ln1) as [o2 ln2] eqn:E.
    cbn [measured_all flat_map]. rewrite end_all_cons. eapply shows_app; [exact H|]. intros A1 P1.
    specialize (IH _ _ _ A1 P1 C2). rewrite E in IH. exact IH.
Qed.
(** A line: every character in its own style; the reader ends in the state of the
    last word. *)
Lemma line_shows ws v s : agree v s -> coh_all ws s ->
  shown_chars (fst (view v (line_ops ws))) = map want (measured_all ws)
  /\ agree (snd (view v (line_ops ws))) (end_all ws s)
  /\ same_pos (snd (view v (line_ops ws))) v
  /\ all_at v (fst (view v (line_ops ws))).
Proof.
  intros A C. unfold line_ops. pose proof (words_shows ws v s [] A (Forall_nil _) C) as H.
  destruct (words_into_line ws []) as [o ln]. destruct H as (E & A1 & P1 & S1 & L1).
  rewrite view_app. cbn [view fst snd vstep]. rewrite shown_chars_app.
  rewrite (shown_items _ _ _ A1 P1). split; [exact E|]. split; [exact A1|]. split; [exact S1|].
  apply Forall_app. split; [exact L1|]. constructor; [exact S1|constructor].
Qed.
Lemma tline_shows l v s : agree v s -> coh_all (tl_words l) (apply (tl_cmd l) s) ->
  shown_chars (fst (view v (tline_ops l))) = map want (measured_all (tl_words l))
  /\ agree (snd (view v (tline_ops l))) (end_all (tl_words l) (apply (tl_cmd l) s))
  /\ same_pos (snd (view v (tline_ops l))) v
  /\ all_at v (fst (view v (tline_ops l))).
Proof.
  intros A C. unfold tline_ops. rewrite view_app. cbn [fst snd].
  destruct (view_cmd (tl_cmd l) v s A) as (E & A1 & S1). rewrite E. cbn [app].
  destruct (line_shows (tl_words l) _ _ A1 C) as (E2 & A2 & S2 & L2).
  split; [exact E2|]. split; [exact A2|]. split; [eapply same_pos_trans; eauto|].
  eapply all_at_trans; eauto.
Qed.

(** ** Positions, regardless of styles *)
Lemma view_cmd_pos c : forall v,
  fst (view v (cmd_ops c)) = [] /\ same_pos (snd (view v (cmd_ops c))) v.
Proof.
  induction c as [| f z | x | c | h | l IH] using command_ind'; intros v;
    try (cbn; split; [reflexivity|repeat split]).
  cbn [cmd_ops]. revert v. induction IH as [|c l Hc _ IHl]; intros v.
  - split; [reflexivity|apply same_pos_refl].
  - cbn [flat_map]. rewrite view_app. cbn [fst snd]. destruct (Hc v) as (E1 & P1).
    destruct (IHl (snd (view v (cmd_ops c)))) as (E2 & P2). rewrite E1, E2.
    split; [reflexivity|]. eapply same_pos_trans; eauto.
Qed.
(** operators that show text and change the font or colour, but do not move *)
Definition still (o : list op) (items : list titem) : Prop :=
  forall v, same_pos (snd (view v o)) v /\ all_at v (fst (view v o))
            /\ flat_map sh_items (fst (view v o)) = items.
Lemma still_app a b i j : still a i -> still b j -> still (a ++ b) (i ++ j).
Proof.
  intros A B v. rewrite view_app. cbn [fst snd]. destruct (A v) as (P1 & L1 & E1).
  destruct (B (snd (view v a))) as (P2 & L2 & E2). split; [eapply same_pos_trans; eauto|].
  split; [apply Forall_app; split; [exact L1|eapply all_at_trans; eauto]|].
  rewrite flat_map_app, E1, E2. reflexivity.
Qed.
Lemma still_cmd c : still (cmd_ops c) [].
Proof. intros v. destruct (view_cmd_pos c v) as [E P]. rewrite E. repeat split; try apply P. constructor. Qed.
Lemma still_nil : still [] [].
Proof. intros v. repeat split. constructor. Qed.
Lemma still_tj ln : still [OTJ ln] ln.
Proof. intros v. cbn. rewrite app_nil_r. repeat split. repeat constructor. Qed.

(** the items of words, in order *)
Definition box_items (b : box) : list titem :=
  match b with BSlug s => [ISlug s] | BMixed segs _ => map (fun p => ISlug (fst p)) segs end.
Fixpoint wl_items (w : wordlike) : list titem :=
  match w with
  | WBox b => box_items b
  | WWord w => flat_map box_items (w_boxes w)
               ++ match w_tail w with Some t => [ISpace t (w_state w)] | None => [] end
  | WCmd w _ => wl_items w
  end.
Lemma segs_still l : forall ln, let '(o, ln') := segs_into_line l ln in
  l <> [] -> exists i, still o i /\ i ++ ln' = ln ++ map (fun p => ISlug (fst p)) l.
Proof.
  induction l as [|[x c] l IH]; intros ln; cbn [segs_into_line]; [congruence|].
  specialize (IH []). destruct (segs_into_line l []) as [o ln'] eqn:E. intros _.
  destruct l as [|y l].
  - cbn in E. injection E as <- <-. exists ((ln ++ [ISlug x]) ++ []). split.
    + rewrite app_nil_r. change (OTJ (ln ++ [ISlug x]) :: cmd_ops c) with ([OTJ (ln ++ [ISlug x])] ++ cmd_ops c).
      apply still_app; [apply still_tj|apply still_cmd].
    + cbn. rewrite !app_nil_r. reflexivity.
  - destruct IH as (i & S1 & E1); [discriminate|]. exists ((ln ++ [ISlug x]) ++ [] ++ i). split.
    + change (OTJ (ln ++ [ISlug x]) :: cmd_ops c ++ o) with ([OTJ (ln ++ [ISlug x])] ++ cmd_ops c ++ o).
      apply still_app; [apply still_tj|apply still_app; [apply still_cmd|exact S1]].
    + cbn [app]. rewrite <- !app_assoc. rewrite E1. reflexivity.
Qed.
Lemma segs_still' l ln : let '(o, ln') := segs_into_line l ln in
  exists i, still o i /\ i ++ ln' = ln ++ map (fun p => ISlug (fst p)) l.
Proof.
  destruct l as [|x l].
  - cbn. exists []. split; [apply still_nil|]. rewrite app_nil_r. reflexivity.
  - pose proof (segs_still (x :: l) ln) as H. destruct (segs_into_line (x :: l) ln) as [o ln'].
    apply H. discriminate.
Qed.
Lemma box_still b ln : let '(o, ln') := box_into_line b ln in
  exists i, still o i /\ i ++ ln' = ln ++ box_items b.
Proof.
  destruct b as [x|l st]; cbn.
  - exists []. split; [apply still_nil|reflexivity].
  - apply segs_still'.
Qed.
Lemma boxes_still l : forall ln, let '(o, ln') := boxes_into_line l ln in
  exists i, still o i /\ i ++ ln' = ln ++ flat_map box_items l.
Proof.
  induction l as [|b l IH]; intros ln; cbn [boxes_into_line].
  - exists []. split; [apply still_nil|]. cbn. rewrite app_nil_r. reflexivity.
  - pose proof (box_still b ln) as H. destruct (box_into_line b ln) as [o1 ln1].
    specialize (IH ln1). destruct (boxes_into_line l ln1) as [o2 ln2].
    destruct H as (i & S1 & E1), IH as (j & S2 & E2). exists (i ++ j). split; [apply still_app; auto|].
    cbn [flat_map]. rewrite <- app_assoc, E2, app_assoc, E1, app_assoc. reflexivity.
Qed.
Lemma wl_still w : forall ln, let '(o, ln') := into_line w ln in
  exists i, still o i /\ i ++ ln' = ln ++ wl_items w.
Proof.
  induction w as [b|w|w IH c]; intros ln; cbn [into_line].
  - apply box_still.
  - unfold word_into_line. pose proof (boxes_still (w_boxes w) ln) as H.
    destruct (boxes_into_line (w_boxes w) ln) as [o ln1]. destruct H as (i & S1 & E1).
    exists i. split; [exact S1|]. cbn [wl_items]. rewrite app_assoc, <- E1.
    destruct (w_tail w); [rewrite app_assoc|rewrite app_nil_r]; reflexivity.
  - specialize (IH ln). destruct (into_line w ln) as [o ln1]. destruct IH as (i & S1 & E1).
    exists (i ++ ln1 ++ []). split.
    + apply still_app; [exact S1|]. change (OTJ ln1 :: cmd_ops c) with ([OTJ ln1] ++ cmd_ops c).
      apply still_app; [apply still_tj|apply still_cmd].
    + rewrite !app_nil_r. exact E1.
Qed.
Lemma words_still l : forall ln, let '(o, ln') := words_into_line l ln in
  exists i, still o i /\ i ++ ln' = ln ++ flat_map wl_items l.
Proof.
  induction l as [|w l IH]; intros ln; cbn [words_into_line].
  - exists []. split; [apply still_nil|]. cbn. rewrite app_nil_r. reflexivity.
  - pose proof (wl_still w ln) as H. destruct (into_line w ln) as [o1 ln1].
    specialize (IH ln1). destruct (words_into_line l ln1) as [o2 ln2].
    destruct H as (i & S1 & E1), IH as (j & S2 & E2). exists (i ++ j). split; [apply still_app; auto|].
    cbn [flat_map]. rewrite <- app_assoc, E2, app_assoc, E1, app_assoc. reflexivity.
Qed.
Lemma line_still ws : still (line_ops ws) (flat_map wl_items ws).
Proof.
  unfold line_ops. pose proof (words_still ws []) as H. destruct (words_into_line ws []) as [o ln].
  destruct H as (i & S1 & E1). cbn [app] in E1. rewrite <- E1. apply still_app; [exact S1|apply still_tj].
Qed.
Lemma tline_still l : still (tline_ops l) (flat_map wl_items (tl_words l)).
Proof.
  unfold tline_ops. change (flat_map wl_items (tl_words l)) with ([] ++ flat_map wl_items (tl_words l)).
  apply still_app; [apply still_cmd|apply line_still].
Qed.
End Show.
