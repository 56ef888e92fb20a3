(** * Properties C55, C56, C70: positioned text, alignment, order of operators.
    Specifications: TextSpec, RenderSpec ([view]: what a reader shows), DrawSpec
    ([well_ordered]); [lines_of] and [line_start] below. *)
From Coq Require Import QArith Qcanon Lqa String.
From Verif Require Import Base Gfmt Num Fonts State Style TextSpec StateProofs Words WordsSpec WordProofs
  Parse Render RenderSpec RenderProofs WordWidth FirstfitWidth Show Common Draw DrawSpec TextBlock TextPos
  Properties_Style Properties_Words.
Local Open Scope list_scope.
Open Scope nat_scope.

(** The lines of a styled text: the strings of its spans, each in the style of its
    span, one after another, cut at line breaks (LF or CRLF within a string). *)
Fixpoint lines_of {NUM : Num} (l : list (str * full)) : list (list schar) :=
  match l with
  | [] => [[]]
  | (t, f) :: r => glue (cut t (as_state f)) (lines_of r)
  end.
Lemma spec_lines_of {NUM : Num} ps : forall s l,
  run_passages ps s = strings_at l -> spec_lines ps s = lines_of l.
Proof.
  induction ps as [|[c t] ps IH]; intros s l E; destruct l as [|[t' f] l]; try discriminate; [reflexivity|].
  cbn in E. injection E as E1 E2 E3. cbn [spec_lines lines_of]. apply IH in E3. rewrite E1, E3, E2. reflexivity.
Qed.
Lemma run_passages_begin {NUM : Num} ps : forall s l, run_passages ps s = strings_at l ->
  Forall (fun p => begins_text (fst p)) l -> Forall (fun p : passage => begins_text (snd p)) ps.
Proof.
  induction ps as [|[c t] ps IH]; intros s l E F; [constructor|]. destruct l as [|[t' f] l]; [discriminate|].
  cbn in E. injection E as E1 E2 E3. inversion F; subst. constructor; [assumption|eapply IH; eauto].
Qed.

(** ** C55.  A text in which no string is empty or begins with a line break (and not
    without strings at all): every line of it is shown, every character in the font,
    size and colour of its span, and encoded for that font; in any arithmetic with
    exact comparison. *)
Theorem C55_text_style_partial : forall (NUM : Num) (ENV : Env NUM), exact_eq NUM -> all_split ->
  forall loc content sty a base v,
  let strings := span_strings base (ISpan sty content) in
  strings <> [] -> Forall (fun p => begins_text (fst p)) strings ->
  exists ops outs, draw_ops (DText loc content sty a) base = Ok ops
    /\ fst (view v ops) = concat outs
    /\ map shown_chars outs = map (map want) (lines_of strings).
Proof.
  intros NUM ENV EX HY loc content sty a base v strings NE B. cbn [draw_ops]. unfold text_ops.
  pose proof (C20_nested_spans NUM EX base sty content) as R. fold strings in R.
  set (ps := flatten base sty content) in *. set (st := as_state base) in *.
  pose proof (run_passages_begin _ _ _ R B) as F.
  assert (PN : ps <> []) by (destruct ps; [destruct strings; [congruence|discriminate R]|discriminate]).
  destruct (text_lines_ok (splitlines ps) HY (splitlines_text_groups ps F) st) as (ls & E & C & M & _).
  rewrite E. cbn [bind]. eexists _, (block_outs a (px loc) (py loc) (Some st) (max_lead ps st) n0 ls v).
  split; [reflexivity|]. split; [apply block_view|]. rewrite block_chars by exact C.
  rewrite <- (map_map (fun l => measured_all (tl_words l)) (map want)), M.
  f_equal. rewrite (splitlines_spec ps st PN). apply spec_lines_of, R.
Qed.
Print Assumptions C55_text_style_partial.

#[local] Existing Instance ex_words.
Definition sty_bold : @style QcNum := @mkStyle QcNum None None (Some true) None None None None.
Definition v_start : @vstate QcNum := mkV None (Q2Qc 0) (@mkRGB QcNum 0%Qc 0%Qc 0%Qc) (Q2Qc 0) (Q2Qc 0) (Q2Qc 0).
Definition nl : str := [10%N].
Definition ex_loc : @xy QcNum := @mkXY QcNum (Q2Qc 100) (Q2Qc 700).
Definition ex_text : list item := [IStr (str_of "one" ++ nl ++ str_of "two "); ISpan sty_bold [IStr (str_of "bold" ++ nl ++ nl ++ str_of "more")]; IStr (str_of "!")].
Example C55_example :
  exact_eq QcNum /\ all_split
  /\ span_strings full_default (ISpan style_empty ex_text) <> []
  /\ Forall (fun p => begins_text (fst p)) (span_strings full_default (ISpan style_empty ex_text))
  /\ map (map fst) (lines_of (span_strings full_default (ISpan style_empty ex_text)))
     = [str_of "one"; str_of "two bold"; []; str_of "more!"]
  /\ map (map (fun x => f_bold (st_font (snd x)))) (lines_of (span_strings full_default (ISpan style_empty ex_text)))
     = [[false; false; false]; [false; false; false; false; true; true; true; true]; [];
        [true; true; true; true; false]].
Proof.
  split; [exact QcNum_exact|]. split; [exact ex_splits|]. split; [discriminate|].
  split; [repeat constructor|]. split; vm_compute; reflexivity.
Qed.

(** Without the condition it is false.  First: a bold span that begins with a line
    break, "\nfoo": the text after the break is encoded for the regular font but shown
    in bold.  Second: plain text, then a span that begins with a line break: the text
    after the break is not shown at all. *)
Definition bad1 : list (@item QcNum) := [ISpan sty_bold [IStr (nl ++ str_of "foo")]].
Definition bad2 : list (@item QcNum) := [IStr (str_of "Hello "); ISpan style_empty [IStr (nl ++ str_of "World")]].
Definition shown_of (content : list (@item QcNum)) :=
  shown_chars (fst (view v_start (ok_or [] (draw_ops (DText ex_loc content style_empty ALeft) full_default)))).
Theorem C55_text_style_refuted :
  (is_ok (draw_ops (DText ex_loc bad1 style_empty ALeft) full_default) = true
   /\ map (fun x => fst (fst x)) (shown_of bad1) = str_of "foo"
   /\ Forall (fun x => f_bold (snd (fst x)) = false
                       /\ option_map f_bold (fst (fst (snd x))) = Some true) (shown_of bad1))
  /\ (is_ok (draw_ops (DText ex_loc bad2 style_empty ALeft) full_default) = true
      /\ map (fun x => fst (fst x)) (shown_of bad2) = str_of "Hello "
      /\ map fst (concat (lines_of (span_strings full_default (ISpan style_empty bad2)))) = str_of "Hello World").
Proof.
  split; [split; [|split]|split; [|split]]; try (vm_compute; reflexivity).
  repeat constructor; vm_compute; reflexivity.
Qed.
Print Assumptions C55_text_style_refuted.
(** ** C25, with a string without text.  In
    ["foo", Span(["", Span("bar", Style(color=blue, line_spacing=2))], Style(bold=True, color=red))]
    the two changes of style before "bar" are merged, and the second one replaces the
    first (see C21): no text is lost and all of it was measured as wanted, but executing
    the commands "bar" is not reached in bold; in the file it is encoded for the bold font
    and shown in the regular one. *)
Definition sty_red_bold : @style QcNum := @mkStyle QcNum None None (Some true) None (Some (@mkRGB QcNum 1%Qc 0%Qc 0%Qc)) None None.
Definition sty_blue_wide : @style QcNum := @mkStyle QcNum None None None None (Some (@mkRGB QcNum 0%Qc 0%Qc 1%Qc)) (Some (Q2Qc 2)) None.
Definition bad3 : list (@item QcNum) := [IStr (str_of "foo"); ISpan sty_red_bold [IStr []; ISpan sty_blue_wide [IStr (str_of "bar")]]].
Definition bad3_passages := @flatten QcNum full_default style_empty bad3.
Definition bad3_words := ok_or (NoOp, [], false) (into_words bad3_passages (as_state full_default)).
Theorem C25_words_keep_style_refuted :
  let st := as_state full_default in
  exists cmd ws, into_words bad3_passages st = Ok (cmd, ws, true)
  /\ measured_all ws = styled bad3_passages st
  /\ map fst (fst (exec_all ws (apply cmd st))) = str_of "foobar"
  /\ Forall (fun x => f_bold (st_font (snd x)) = true) (skipn 3 (styled bad3_passages st))
  /\ Forall (fun x => f_bold (st_font (snd x)) = false) (skipn 3 (fst (exec_all ws (apply cmd st)))).
Proof.
  exists (fst (fst bad3_words)), (snd (fst bad3_words)).
  assert (E : into_words bad3_passages (as_state full_default) = Ok bad3_words) by (apply ok_or_eq; vm_compute; reflexivity).
  split; [rewrite E; f_equal; rewrite (surjective_pairing bad3_words) at 1; rewrite (surjective_pairing (fst bad3_words)) at 1; f_equal; vm_compute; reflexivity|].
  split; [vm_compute; reflexivity|]. split; [vm_compute; reflexivity|]. split; repeat constructor; vm_compute; reflexivity.
Qed.
Print Assumptions C25_words_keep_style_refuted.
Theorem C55_empty_string_refuted :
  is_ok (draw_ops (DText ex_loc bad3 style_empty ALeft) full_default) = true
  /\ map (fun x => fst (fst x)) (shown_of bad3) = str_of "foobar"
  /\ Forall (fun x => f_bold (snd (fst x)) = true
                      /\ option_map f_bold (fst (fst (snd x))) = Some false) (skipn 3 (shown_of bad3)).
Proof.
  split; [vm_compute; reflexivity|]. split; [vm_compute; reflexivity|]. repeat constructor; vm_compute; reflexivity.
Qed.
Print Assumptions C55_empty_string_refuted.

(** ** C56.  In a text block at (x, y) of width W, line k (from 1) stands k leadings
    below y, and starts where the alignment says. *)
Theorem C56_line_positions : forall (ENV : Env QcNum) (x y W lead : Qc) st ls a v,
  exists outs, fst (view v (render_text x y st W ls lead a)) = concat outs
  /\ List.length outs = List.length ls
  /\ forall k o l, nth_error outs k = Some o -> nth_error ls k = Some l ->
     flat_map sh_items o = flat_map wl_items (tl_words l)
     /\ Forall (fun s => v_x (sh_v s) = line_start a x W (tl_width l)
                         /\ v_y (sh_v s) = (y - Q2Qc (inject_Z (Z.of_nat (S k))) * lead)%Qc) o.
Proof.
  intros ENV x y W ld st ls a v. exists (@block_outs QcNum a x y st ld W ls v).
  split; [apply block_view|]. split; [apply block_outs_length|]. intros k o l EO EL. split.
  - pose proof (@block_items QcNum x y st W ls ld a v) as I.
    apply (f_equal (fun l => nth_error l k)) in I.
    rewrite (map_nth_error _ _ _ EO), (map_nth_error _ _ _ EL) in I. injection I as I. exact I.
  - exact (block_pos a x y st ld W ls v k o l EO EL).
Qed.
Print Assumptions C56_line_positions.
(** For a [Text] the box has no width, the leading is that of C23, and the width of a
    line is the displacement of what it shows: a centred line is centred at the
    location, a right-aligned one ends there. *)
Theorem C56_text_drawings : forall (ENV : Env QcNum) loc content sty a base ops v,
  draw_ops (DText loc content sty a) base = Ok ops ->
  let lead := max_lead (flatten base sty content) (as_state base) in
  exists outs, fst (view v ops) = concat outs
  /\ forall k o, nth_error outs k = Some o ->
     let w := items_advance (flat_map sh_items o) in
     let start := match a with
                  | ACenter => (px loc - w / Q2Qc 2)%Qc | ARight => (px loc - w)%Qc | _ => px loc end in
     Forall (fun s => v_x (sh_v s) = start
                      /\ v_y (sh_v s) = (py loc - Q2Qc (inject_Z (Z.of_nat (S k))) * lead)%Qc) o.
Proof.
  intros ENV loc content sty a base ops v E ld. cbn [draw_ops] in E. unfold text_ops in E.
  destruct (text_lines (splitlines (flatten base sty content)) (as_state base)) as [ls|] eqn:EL; [|discriminate].
  cbn [bind] in E. apply Ok_inj in E. subst ops. apply text_lines_width in EL.
  destruct (C56_line_positions ENV (px loc) (py loc) (@n0 QcNum) ld (Some (as_state base)) ls a v)
    as (outs & E1 & E2 & E3).
  exists outs. split; [exact E1|]. intros k o EO w start.
  assert (NL : exists l, nth_error ls k = Some l).
  { destruct (nth_error ls k) eqn:X; eauto. apply nth_error_None in X.
    assert (k < List.length outs)%nat by (apply nth_error_Some; congruence). lia. }
  destruct NL as (l & ELk). destruct (E3 k o l EO ELk) as (I & P).
  rewrite Forall_forall in EL. specialize (EL l (nth_error_In _ _ ELk)).
  assert (W : (tl_width l : Qc) = w) by (unfold w; rewrite I, all_items_advance; exact EL).
  eapply Forall_impl; [|exact P]. intros s [P1 P2]. split; [|exact P2]. rewrite P1, W. unfold start.
  assert (T : Q2Qc 2 <> 0%Qc) by (intros C; discriminate C).
  assert (N0 : (@n0 QcNum : Qc) = 0%Qc) by reflexivity.
  destruct a; cbn [line_start]; try reflexivity; rewrite N0; [qfield T|qring].
Qed.
Print Assumptions C56_text_drawings.
(** centred, 12-point text, half an em per character *)
Example C56_example :
  is_ok (draw_ops (DText ex_loc ex_text style_empty ACenter) full_default) = true
  /\ map (fun s => (this (v_x (sh_v s)), this (v_y (sh_v s))))
       (fst (view v_start (ok_or [] (draw_ops (DText ex_loc [IStr (str_of "one" ++ nl ++ str_of "twenty")] style_empty ACenter) full_default))))
     = [(91 # 1, 685 # 1); (82 # 1, 670 # 1)]%Q.
Proof. split; vm_compute; reflexivity. Qed.

(** ** C70.  Text blocks and shapes without colour are well-ordered ... *)
Theorem C70_text_order : forall (NUM : Num) (ENV : Env NUM) x y st W ls lead a,
  well_ordered (render_text x y st W ls lead a).
Proof. intros. apply render_text_ordered. Qed.
Print Assumptions C70_text_order.
Definition colourless {NUM : Num} (d : drawing) : Prop :=
  match d with
  | DLine _ _ s => s = None
  | DRect _ _ _ f s | DEllipse _ _ _ f s | DCircle _ _ f s | DPolyline _ _ f s => f = None /\ s = None
  | DText _ _ _ _ => True
  end.
Lemma levels_lines {NUM : Num} (l : list (num * num)) r : levels LPath (map (fun q => Ol (fst q) (snd q)) l ++ r) = levels LPath r.
Proof. induction l as [|q l IH]; [reflexivity|]. exact IH. Qed.
Theorem C70_drawing_order_partial : forall (NUM : Num) (ENV : Env NUM) d base ops,
  draw_ops d base = Ok ops -> colourless d -> well_ordered ops.
Proof.
  intros NUM ENV d base ops E C. destruct d; cbn [draw_ops colourless] in *;
    try (apply Ok_inj in E; subst ops).
  - subst. reflexivity.
  - destruct C; subst. reflexivity.
  - destruct C; subst. reflexivity.
  - destruct C; subst. reflexivity.
  - destruct C; subst. unfold polyline_ops in E. destruct pts as [|p r]; [apply Ok_inj in E; subst; reflexivity|].
    destruct (first_point p); [|discriminate]. cbn [bind] in E.
    destruct (mapM other_point r); [|discriminate]. cbn [bind] in E. apply Ok_inj in E. subst ops.
    unfold well_ordered. cbn [levels level_step]. rewrite levels_lines. reflexivity.
  - unfold text_ops in E. destruct (text_lines _ _); [|discriminate]. cbn [bind] in E. apply Ok_inj in E. subst ops.
    apply render_text_ordered.
Qed.
Print Assumptions C70_drawing_order_partial.
(** ... but whenever a shape has a colour, the colour is set between the construction
    of its path and the painting, which the standard does not allow. *)
Theorem C70_drawing_order_refuted : forall (NUM : Num) (ENV : Env NUM) d base ops,
  draw_ops d base = Ok ops -> ops <> [] -> ~ colourless d -> ~ well_ordered ops.
Proof.
  intros NUM ENV d base ops E NE C W. destruct d; cbn [draw_ops colourless] in *;
    try (apply Ok_inj in E; subst ops).
  - destruct stroke; [discriminate W|congruence].
  - destruct fill, stroke; try discriminate W. apply C; auto.
  - destruct fill, stroke; try discriminate W. apply C; auto.
  - destruct fill, stroke; try discriminate W. apply C; auto.
  - unfold polyline_ops in E. destruct pts as [|p r]; [apply Ok_inj in E; subst; congruence|].
    destruct (first_point p); [|discriminate]. cbn [bind] in E.
    destruct (mapM other_point r); [|discriminate]. cbn [bind] in E. apply Ok_inj in E. subst ops.
    unfold well_ordered in W. cbn [levels level_step] in W. rewrite levels_lines in W.
    destruct fill, stroke; try discriminate W. apply C; auto.
  - apply C, I.
Qed.
Print Assumptions C70_drawing_order_refuted.
Example C70_example : forall (NUM : Num) (ENV : Env NUM) o w h c base,
  well_ordered [Ore (px o) (py o) w h; On]
  /\ draw_ops (DRect o w h (Some c) None) base = Ok [Ore (px o) (py o) w h; OrgD c; Of]
  /\ ~ colourless (DRect o w h (Some c) None).
Proof. intros. split; [reflexivity|]. split; [reflexivity|]. intros [C _]. discriminate. Qed.
