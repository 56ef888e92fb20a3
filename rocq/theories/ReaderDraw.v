(** * ReaderDraw: the text of drawings, as extracted. *)
From Coq Require Import QArith String.
From Verif Require Import Base Gfmt GfmtProofs Atoms PdfSpec AtomsProofs FileProofs NameProofs FontSpec FontProofs ContentSpec ContentProofs ReaderSpec.
From Verif Require Import Num Fonts State Style TextSpec StateProofs Words WordsSpec Parse Render RenderSpec RenderProofs Firstfit KnuthPlass
  Optimum Common Show Draw DrawSpec TextBlock Layout LayoutSpec LayoutProofs LayoutPages ContentOps FontsUsed ReaderText ContentText Document DocumentSpec DocumentProofs ReaderDoc ReaderStd ReaderParas Properties_Text.
Local Open Scope list_scope.
Open Scope nat_scope.

Section S.
Context {NUM : Num} {ENV : Env NUM}.
(** the text of a drawing: what is left of its characters in their fonts *)
Definition drawing_text (base : full) (d : drawing) : str :=
  match d with
  | DText _ content sty _ =>
      map (fun c => legible (st_font (snd c)) (fst c)) (concat (lines_of (span_strings base (ISpan sty content))))
  | _ => []
  end.
(** see C55 *)
Definition good_drawing (base : full) (d : drawing) : Prop :=
  match d with
  | DText _ content sty _ => let strings := span_strings base (ISpan sty content) in
      strings <> [] /\ Forall (fun p => begins_text (fst p)) strings
  | _ => True
  end.
Lemma shown_chars_text l : shown_text l = map (fun x => legible (snd (fst x)) (fst (fst x))) (shown_chars l).
Proof.
  unfold shown_text, shown_chars. induction l as [|s l IH]; [reflexivity|]. cbn [flat_map]. rewrite map_app, IH. f_equal.
  induction (sh_items s) as [|i r IHr]; [reflexivity|]. cbn [flat_map]. rewrite map_app, IHr, map_map. reflexivity.
Qed.
Lemma wanted_codes l cs : shown_chars l = map want cs -> Forall has_font l -> right_codes l.
Proof.
  intros E H.
  assert (A : Forall (fun x : char * font * (option font * num * rgb) => fst (fst (snd x)) = Some (snd (fst x))) (shown_chars l)).
  { rewrite E. apply Forall_map, Forall_forall. intros; reflexivity. }
  clear E. unfold right_codes. induction H as [|s l H _ IH]; [constructor|]. unfold shown_chars in A. cbn [flat_map] in A. apply Forall_app in A as [A1 A2].
  constructor; [|apply IH, A2]. clear IH A2. destruct H as [->|(f & E)]; [constructor|].
  induction (sh_items s) as [|i r IHr]; [constructor|]. cbn [flat_map] in A1. apply Forall_app in A1 as [B1 B2]. constructor; [|apply IHr, B2].
  exists f. split; [exact E|]. destruct (item_text i) as [|c t]; [left; reflexivity|]. right. left. inversion B1 as [|? ? B _]; subst. cbn in B. congruence.
Qed.
Ltac dull1 := let X := fresh in intros ? X; discriminate X.
Ltac dulls := repeat (apply Forall_cons; [dull1|]); try apply Forall_nil.
Lemma draw_dull d base ops : draw_ops d base = Ok ops -> match d with DText _ _ _ _ => True | _ => Forall dull ops end.
Proof.
  destruct d as [a b s|o w h f s|c w h f s|c r f s|pts close f s|loc content st al]; cbn [draw_ops]; intros E; [| | | | |exact I].
  1-4: apply Ok_inj in E; subst; unfold ellipse_ops; cbn [app]; dulls; apply finish_dull.
  unfold polyline_ops in E. destruct pts as [|p r]; [apply Ok_inj in E; subst; constructor|].
  apply bind_ok in E as (a & _ & E). apply bind_ok in E as (l & _ & E). apply Ok_inj in E. subst.
  constructor; [dull1|]. apply Forall_app. split; [|apply finish_dull]. apply Forall_map, Forall_forall. intros q _. dull1.
Qed.
Lemma dull_shown ops : Forall dull ops -> forall v, shown_chars (fst (view v ops)) = [].
Proof.
  induction 1 as [|o ops D _ IH]; intros v; [reflexivity|]. cbn [view]. specialize (IH (vstep v o)).
  destruct (view (vstep v o) ops) as [out v']. cbn [fst] in *. destruct o; try exact IH.
  rewrite (D _ eq_refl). exact IH.
Qed.
Lemma drawing_shown d base ops v : exact_eq NUM -> all_split -> good_drawing base d -> draw_ops d base = Ok ops ->
  exists cs, shown_chars (fst (view v ops)) = map want cs
  /\ map (fun c => legible (st_font (snd c)) (fst c)) cs = drawing_text base d.
Proof.
  intros EE AS G E. destruct d as [a b s|o w h f s|c w h f s|c r f s|pts close f s|loc content st al].
  1-5: exists []; split; [|reflexivity]; apply dull_shown, (draw_dull _ _ _ E).
  destruct G as [NE BT]. destruct (C55_text_style_partial NUM ENV EE AS loc content st al base v NE BT) as (ops' & outs & E' & V & W).
  rewrite E in E'. apply Ok_inj in E'. subst ops'. exists (concat (lines_of (span_strings base (ISpan st content)))). split; [|reflexivity].
  rewrite V. clear -W. revert W. generalize (lines_of (span_strings base (ISpan st content))). induction outs as [|o outs IH]; intros [|l ls] W; try discriminate W; [reflexivity|].
  cbn [map concat] in *. injection W as W1 W2. rewrite shown_chars_app, map_app, W1, (IH ls W2). reflexivity.
Qed.
Lemma drawings_shown base ds l : exact_eq NUM -> all_split -> Forall (good_drawing base) ds -> mapM (fun d => draw_ops d base) ds = Ok l ->
  forall v, exists cs, shown_chars (fst (view v (concat l))) = map want cs
  /\ map (fun c => legible (st_font (snd c)) (fst c)) cs = flat_map (drawing_text base) ds.
Proof.
  intros EE AS G. revert l. induction G as [|d ds G _ IH]; intros l E v; cbn [mapM] in E.
  - apply Ok_inj in E. subst. exists []. auto.
  - apply bind_ok in E as (x & X & E). apply bind_ok in E as (y & Y & E). apply Ok_inj in E. subst. cbn [concat flat_map].
    destruct (drawing_shown d base x v EE AS G X) as (c1 & A1 & B1). destruct (IH y Y (snd (view v x))) as (c2 & A2 & B2).
    exists (c1 ++ c2). rewrite view_app. cbn [fst]. rewrite shown_chars_app, A1, A2, !map_app, B1, B2. auto.
Qed.
(** a page without laid out text *)
Lemma drawn_page base p ops : exact_eq NUM -> all_split -> Forall (good_drawing base) (pg_content p) -> page_ops base (p, []) = Ok ops ->
  right_codes (fst (view blank ops)) /\ shown_text (fst (view blank ops)) = flat_map (drawing_text base) (pg_content p).
Proof.
  intros EE AS G E. unfold page_ops in E. apply bind_ok in E as (l & M & E). apply Ok_inj in E. subst. cbn [fst snd] in *. rewrite app_nil_r.
  destruct (drawings_shown base _ l EE AS G M blank) as (cs & A & B). split.
  - eapply wanted_codes; [exact A|]. apply (mapM_concat_opens _ _ _ M).
  - rewrite shown_chars_text, A, map_map. rewrite <- B. reflexivity.
Qed.
End S.
