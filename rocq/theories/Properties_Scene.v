(** * C86: what a drawing or a block shows does not depend on what was drawn before it *)
From Coq Require Import String QArith Qcanon.
From Verif Require Import Base Gfmt Atoms Num Fonts State Style Words Parse Render RenderSpec Firstfit KnuthPlass
  Optimum Common Draw DrawSpec Layout FontsUsed Document DocumentSpec SceneSpec SceneProofs
  Properties_Words Properties_Text Properties_Layout Properties_Document.
Local Open Scope list_scope.
Open Scope nat_scope.

(** The operators of each thing put on a page by the layout: of each piece of a paragraph
    and of each rule. *)
Definition pieces {NUM : Num} {ENV : Env NUM} (cols : list colfill) : list (list op) :=
  flat_map (fun c => map (fun b => sh_ops (snd b) (fst b) (c_width (cf_box c))) (cf_blocks c)) cols.
Lemma pieces_concat {NUM : Num} {ENV : Env NUM} cols : concat (pieces cols) = flat_map cf_ops cols.
Proof.
  induction cols as [|c cols IH]; [reflexivity|]. unfold pieces in *. cbn [flat_map]. rewrite concat_app, IH. f_equal.
  unfold cf_ops. rewrite flat_map_concat_map. reflexivity.
Qed.
Lemma laid_cols {NUM : Num} {ENV : Env NUM} fuel base items n pages pg :
  laid fuel base items n pages -> In pg pages -> exists cols, snd pg = flat_map cf_ops cols.
Proof.
  induction 1 as [n|p items n pages H IH|blocks template items n ps pages A H IH]; intros IN.
  - destruct IN.
  - destruct IN as [<- | IN]; [exists []; reflexivity|auto].
  - apply in_app_or in IN as [IN|IN]; [|auto]. apply in_map_iff in IN as (x & <- & _). exists (snd x). reflexivity.
Qed.
Lemma all_alone {NUM : Num} {ENV : Env NUM} base ds : forall drawn, mapM (fun d => draw_ops d base) ds = Ok drawn ->
  exists marks, Forall2 shows_alone drawn marks.
Proof.
  induction ds as [|d ds IH]; intros drawn E; cbn [mapM] in E.
  - apply Ok_inj in E. subst. exists []. constructor.
  - destruct (draw_ops d base) as [o|] eqn:D; [|discriminate]. cbn [bind] in E.
    destruct (mapM _ ds) as [l|]; [|discriminate]. cbn [bind] in E. apply Ok_inj in E. subst.
    destruct (drawing_alone _ _ _ D) as [m M]. destruct (IH l eq_refl) as [ms MS]. exists (m :: ms). now constructor.
Qed.
Lemma pieces_alone {NUM : Num} {ENV : Env NUM} cols : exists marks, Forall2 shows_alone (pieces cols) marks.
Proof.
  induction cols as [|c cols [ms IH]]; [exists []; constructor|].
  assert (X : exists ms1, Forall2 shows_alone (map (fun b => sh_ops (snd b) (fst b) (c_width (cf_box c))) (cf_blocks c)) ms1).
  { induction (cf_blocks c) as [|b l [ms1 IHl]]; [exists []; constructor|].
    destruct (shaped_alone (snd b) (fst b) (c_width (cf_box c))) as [m M]. exists (m :: ms1). now constructor. }
  destruct X as [ms1 X]. exists (ms1 ++ ms). unfold pieces. cbn [flat_map]. now apply Forall2_app.
Qed.

(** ** C86.  Each page of a document is a sequence of drawings, pieces of paragraphs, and
    rules.  Each of these shows the same marks (paths with their colours; text with its place,
    font, size and colour) whatever the state of the reader before; the page shows
    these marks, one after the other, and nothing else. *)
Theorem C86_page_is_sum : forall (NUM : Num) (ENV : Env NUM) fuel base items pages pg ops,
  laid fuel base items 0 pages -> In pg pages -> page_ops base pg = Ok ops ->
  exists drawn cols marks,
    mapM (fun d => draw_ops d base) (pg_content (fst pg)) = Ok drawn /\ snd pg = flat_map cf_ops cols
    /\ ops = concat (drawn ++ pieces cols)
    /\ Forall2 shows_alone (drawn ++ pieces cols) marks
    /\ shows_alone ops (concat marks).
Proof.
  intros NUM ENV fuel base items pages pg ops L IN E. unfold page_ops in E.
  destruct (mapM _ (pg_content (fst pg))) as [drawn|] eqn:D; [|discriminate]. cbn [bind] in E. apply Ok_inj in E. subst ops.
  destruct (laid_cols _ _ _ _ _ _ L IN) as [cols C]. destruct (all_alone _ _ _ D) as [m1 M1].
  destruct (pieces_alone cols) as [m2 M2]. exists drawn, cols, (m1 ++ m2).
  split; [reflexivity|]. split; [exact C|]. rewrite C, <- pieces_concat, concat_app. split; [reflexivity|].
  assert (F : Forall2 shows_alone (drawn ++ pieces cols) (m1 ++ m2)) by (now apply Forall2_app).
  split; [exact F|]. rewrite <- concat_app. now apply alone_concat.
Qed.
Print Assumptions C86_page_is_sum.
(** So a drawing added to a page adds what it shows by itself, and changes nothing else,
    neither of the drawings before it nor of those after it. *)
Lemma mapM_both {A B} (f : A -> res B) l1 l2 :
  mapM f (l1 ++ l2) = do a <- mapM f l1; do b <- mapM f l2; Ok (a ++ b).
Proof.
  induction l1 as [|x l1 IH]; cbn [app mapM bind]; [destruct (mapM f l2); reflexivity|].
  destruct (f x); [|reflexivity]. cbn [bind]. rewrite IH. destruct (mapM f l1); [|reflexivity]. cbn [bind].
  destruct (mapM f l2); reflexivity.
Qed.
Theorem C86_drawing_added : forall (NUM : Num) (ENV : Env NUM) base before d after (p p' : page drawing) cols ops ops',
  pg_content p = before ++ after -> pg_content p' = before ++ d :: after ->
  page_ops base (p, flat_map cf_ops cols) = Ok ops -> page_ops base (p', flat_map cf_ops cols) = Ok ops' ->
  exists o m1 m m2, draw_ops d base = Ok o /\ shows_alone o m
    /\ shows_alone ops (m1 ++ m2) /\ shows_alone ops' (m1 ++ m ++ m2).
Proof.
  intros NUM ENV base before d after p p' cols ops ops' P P' E E'. unfold page_ops in *. cbn [fst snd] in *. rewrite P in E. rewrite P' in E'.
  rewrite mapM_both in E, E'.
  destruct (mapM _ before) as [b|] eqn:B; [|discriminate]. cbn [bind mapM] in E, E'.
  destruct (mapM _ after) as [a|] eqn:A; [|discriminate]. cbn [bind] in E, E'.
  destruct (draw_ops d base) as [o|] eqn:D; [|discriminate]. cbn [bind] in E'.
  apply Ok_inj in E, E'. subst ops ops'.
  destruct (all_alone _ _ _ B) as [mb MB]. destruct (all_alone _ _ _ A) as [ma MA]. destruct (drawing_alone _ _ _ D) as [m M].
  destruct (pieces_alone cols) as [me ME]. exists o, (concat mb), m, (concat ma ++ concat me).
  split; [reflexivity|]. split; [exact M|]. rewrite <- pieces_concat, !concat_app. cbn [concat].
  apply alone_concat in MB, MA, ME. split.
  - rewrite <- app_assoc. repeat apply alone_app; assumption.
  - rewrite <- !app_assoc. repeat apply alone_app; assumption.
Qed.
Print Assumptions C86_drawing_added.

(** A rule shows a line between its two ends, in its colour. *)
Theorem C86_rule : forall (NUM : Num) (ENV : Env NUM) from to c h pos w,
  shows_alone (sh_ops (SRule from to c h) pos w)
    [MPath [SMove (px from) (py from); SLineTo (px to) (py to)] None (Some c) false].
Proof. intros NUM ENV from to c h pos w g [P T]. destruct g; cbn in P, T; subst. cbn. eexists. split; [|reflexivity]. split; reflexivity. Qed.
Print Assumptions C86_rule.

(** The reader of whole pages agrees with the readers of text (C54-C56) and of paths (C57). *)
Definition text_marks {NUM : Num} (l : list mark) : list mark :=
  filter (fun m => match m with MText _ _ _ _ _ _ => true | MPath _ _ _ _ => false end) l.
Definition of_shown {NUM : Num} (s : shown) : list mark :=
  match sh_items s with
  | [] => []
  | items => let v := sh_v s in [MText (v_x v) (v_y v) (v_font v) (v_size v) (v_color v) items]
  end.
Definition text_state {NUM : Num} (g : gfx) : vstate :=
  mkV (x_font g) (x_size g) (x_fill g) (x_lead g) (x_x g) (x_y g).
Theorem C86_text_as_viewed : forall (NUM : Num) ops g g' ms, scene g ops = Some (g', ms) ->
  text_marks ms = flat_map of_shown (fst (view (text_state g) ops)) /\ text_state g' = snd (view (text_state g) ops).
Proof.
  intros NUM ops. induction ops as [|o ops IH]; intros g g' ms E; cbn [scene] in E; [injection E as <- <-; split; reflexivity|].
  destruct (scene1 g o) as [[g1 m1]|] eqn:S1; [|discriminate]. destruct (scene g1 ops) as [[g2 m2]|] eqn:S2; [|discriminate].
  injection E as <- <-. cbn [view]. destruct (IH _ _ _ S2) as [A B].
  assert (X : vstep (text_state g) o = text_state g1 /\ text_marks m1 = match o with OTJ items => of_shown (mkShown (text_state g) items) | _ => [] end).
  { destruct o; cbn [scene1] in S1;
      repeat match type of S1 with
             | context [match x_path g with _ => _ end] => destruct (x_path g); [try discriminate S1|]
             | context [if x_text g then _ else _] => destruct (x_text g); try discriminate S1
             | context [match ?l with [] => _ | _ :: _ => _ end] => destruct l
             end; try discriminate S1; injection S1 as <- <-; split; reflexivity. }
  destruct X as [X Y]. rewrite X. destruct (view (text_state g1) ops) as [out v'] eqn:V. cbn [fst snd] in *. split; [|exact B].
  unfold text_marks in *. rewrite filter_app, A, Y. destruct o; reflexivity.
Qed.
Print Assumptions C86_text_as_viewed.
Definition path_mark {NUM : Num} (p : painted) : list mark :=
  match p_fill p, p_stroke p with
  | None, None => []
  | f, s => [MPath (p_path p) f s (p_close p)]
  end.
Definition path_state {NUM : Num} (g : gfx) : gstate := mkG (x_fill g) (x_stroke g) (x_path g).
Theorem C86_paths_as_painted : forall (NUM : Num) ops g p' ps, x_text g = false ->
  paint (path_state g) ops = Some (p', ps) ->
  exists g', scene g ops = Some (g', flat_map path_mark ps) /\ path_state g' = p' /\ x_text g' = false.
Proof.
  intros NUM ops. induction ops as [|o ops IH]; intros g p' ps T E; cbn [paint] in E; [injection E as <- <-; exists g; auto|].
  destruct (paint1 (path_state g) o) as [[p1 a]|] eqn:P1; [|discriminate]. destruct (paint p1 ops) as [[p2 b]|] eqn:P2; [|discriminate].
  injection E as <- <-. cbn [scene].
  assert (X : exists g1, scene1 g o = Some (g1, flat_map path_mark a) /\ path_state g1 = p1 /\ x_text g1 = false).
  { destruct o; cbn [paint1 path_state g_fill g_stroke g_path] in P1; try discriminate P1; cbn [scene1];
      destruct (x_path g) as [|s0 sp] eqn:PE; try discriminate P1; injection P1 as <- <-; rewrite ?T, ?PE;
      (eexists; split; [reflexivity|]; split; [unfold path_state; cbn; rewrite ?PE; reflexivity|exact T]). }
  destruct X as (g1 & X & Y & T1). rewrite X. subst p1. destruct (IH _ _ _ T1 P2) as (g2 & Z & W & T2).
  rewrite Z. exists g2. rewrite flat_map_app. auto.
Qed.
Print Assumptions C86_paths_as_painted.
(** A page with red text, a line in the standard colour, and a paragraph and a rule that
    are laid out: the line is black, the paragraph is not red. *)
#[local] Existing Instance ex_words.
Definition ex_red : @rgb QcNum := @mkRGB QcNum 1%Qc 0%Qc 0%Qc.
Definition ex_black : @rgb QcNum := @mkRGB QcNum 0%Qc 0%Qc 0%Qc.
Definition ex_scene_page : @page QcNum (@drawing QcNum) :=
  mkPage [DText ex_loc [IStr (str_of "Hi")] (@mkStyle QcNum None None None None (Some ex_red) None None) ALeft;
          DLine ex_loc ex_loc (Some ex_black)] (@A4 QcNum) 0 (pg_columns (@default_page QcNum)).
Definition ex_scene_items : list (@ditem QcNum) :=
  [DAuto [BPara (par ex_styled false); @BRule QcNum ex_red (mkSides n0 n0 n0 n0)] (fun _ => ex_scene_page)].
Definition mark_color (m : @mark QcNum) : option rgb :=
  match m with MPath _ _ s _ => s | MText _ _ _ _ c _ => Some c end.
Definition ex_scene_laid := ok_or [] (auto_pages 100 [BPara (par ex_styled false); @BRule QcNum ex_red (mkSides n0 n0 n0 n0)] (fun _ => ex_scene_page) full_default 1).
Definition ex_scene_pages : list laid_page := map (fun p => (fst p, flat_map cf_ops (snd p))) ex_scene_laid ++ [].
Example C86_example :
  laid 100 full_default ex_scene_items 0 ex_scene_pages
  /\ map (fun pg => option_map (fun x => map (fun m => match mark_color m with Some c => this (red c) | None => 2 # 1 end) (snd x))
                      (scene (@x_start QcNum) (ok_or [] (page_ops full_default pg)))) ex_scene_pages
     = [Some [1 # 1; 0 # 1; 0 # 1; 0 # 1; 0 # 1; 1 # 1]]%Q.
Proof.
  split.
  - unfold ex_scene_items, ex_scene_pages. eapply laid_auto_item; [|apply laid_nil]. apply ok_or_eq. vm_compute. reflexivity.
  - vm_compute. reflexivity.
Qed.
