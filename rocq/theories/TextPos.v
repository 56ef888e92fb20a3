(** * TextPos: the lines of a text block: what each shows and where. *)
From Coq Require Import QArith Qcanon Lqa.
From Verif Require Import Base Num Fonts State Style TextSpec StateProofs Words WordsSpec WordProofs
  Parse Render RenderSpec RenderProofs WordWidth FirstfitWidth Show Common Draw DrawSpec TextBlock.
Open Scope nat_scope.

Section Pos.
Context {NUM : Num} {ENV : Env NUM}.
(** the positioning operator before each line *)
Fixpoint chained (f : num -> num -> num) (lead : num) (ls : list tline) (prev : num) : list (op * tline) :=
  match ls with
  | [] => []
  | l :: r => (OTD (f prev (tl_width l)) (nneg lead), l) :: chained f lead r (tl_width l)
  end.
Definition moves (a : align) (ls : list tline) (lead width : num) : list (op * tline) :=
  match a with
  | ALeft | AJustify => map (fun l => (OTstar, l)) ls
  | ACenter => chained (fun p w => ndiv (nsub p w) (nZ 2)) lead ls width
  | ARight => chained nsub lead ls width
  end.
Definition moves_ops (l : list (op * tline)) : list op := flat_map (fun p => fst p :: tline_ops (snd p)) l.
Lemma chained_lines f lead ls : forall p, map snd (chained f lead ls p) = ls.
Proof. induction ls as [|l ls IH]; intros p; [reflexivity|]. cbn [chained map snd]. f_equal. apply IH. Qed.
Lemma moves_lines a ls lead w : map snd (moves a ls lead w) = ls.
Proof.
  destruct a; cbn [moves]; try apply chained_lines; rewrite map_map; cbn [snd]; apply map_id.
Qed.
Lemma moves_render a ls lead w : render_lines a ls lead w =
  (match a with ALeft | AJustify => [OTL lead] | _ => [] end) ++ moves_ops (moves a ls lead w).
Proof.
  assert (L : render_left ls lead = OTL lead :: moves_ops (map (fun l => (OTstar, l)) ls)).
  { unfold render_left. f_equal. induction ls; [reflexivity|]. cbn [map moves_ops flat_map fst snd app]. cbn. f_equal. f_equal. assumption. }
  destruct a; cbn [render_lines moves app]; try exact L; clear L; revert w;
    induction ls as [|l ls IH]; intros w; try reflexivity; cbn [render_centered render_right chained moves_ops flat_map fst snd app];
    f_equal; f_equal; apply IH.
Qed.
(** what the lines show, one list per line *)
Fixpoint outs (v : vstate) (l : list (op * tline)) : list (list shown) :=
  match l with
  | [] => []
  | p :: r => let w := vstep v (fst p) in
              fst (view w (tline_ops (snd p))) :: outs (snd (view w (tline_ops (snd p)))) r
  end.
Definition is_tj (o : op) : bool := match o with OTJ _ => true | _ => false end.
Lemma outs_view l : Forall (fun p : op * tline => is_tj (fst p) = false) l -> forall v,
  fst (view v (moves_ops l)) = concat (outs v l).
Proof.
  induction 1 as [|[o t] l H _ IH]; intros v; [reflexivity|]. cbn [moves_ops flat_map fst snd outs concat app].
  rewrite view_cons by (intros x; cbn in H; destruct o; discriminate).
  fold (moves_ops l). rewrite view_app1, IH. reflexivity.
Qed.
Lemma moves_no_tj a ls lead w : Forall (fun p : op * tline => is_tj (fst p) = false) (moves a ls lead w).
Proof.
  assert (C : forall f ls p, Forall (fun p : op * tline => is_tj (fst p) = false) (chained f lead ls p)).
  { intros f l0. induction l0; intros p; constructor; auto. }
  destruct a; cbn [moves]; auto; apply Forall_forall; intros p H; apply in_map_iff in H as (x & <- & _); reflexivity.
Qed.
Lemma outs_length l : forall v, List.length (outs v l) = List.length l.
Proof. induction l; intros v; cbn; auto. Qed.
(** the reader's state before the first line *)
Definition before (a : align) (x y : num) (st : option state) (lead : num) (v : vstate) : vstate :=
  let v := vmove (mkV (v_font v) (v_size v) (v_color v) (v_lead v) n0 n0) x y in
  let v := match st with
           | Some s => mkV (Some (st_font s)) (st_size s) (st_color s) (v_lead v) (v_x v) (v_y v)
           | None => v end in
  match a with ALeft | AJustify => vlead v lead | _ => v end.
Definition block_outs a x y st lead w ls v := outs (before a x y st lead v) (moves a ls lead w).
Lemma block_view x y st w ls lead a v :
  fst (view v (render_text x y st w ls lead a)) = concat (block_outs a x y st lead w ls v).
Proof.
  unfold render_text. do 2 rewrite view_cons by discriminate.
  rewrite view_app1. replace (fst (view (vstep (vstep v OBT) (OTd x y)) match st with Some s => state_ops s | None => [] end)) with (@nil shown)
    by (destruct st; reflexivity).
  cbn [app]. rewrite view_app1, moves_render, view_app1.
  set (v1 := snd (view _ match st with Some s => _ | None => _ end)).
  set (pre := match a with ALeft | AJustify => [OTL lead] | _ => [] end).
  replace (fst (view v1 pre)) with (@nil shown) by (destruct a; reflexivity).
  replace (snd (view v1 pre)) with (before a x y st lead v) by (destruct a, st; reflexivity).
  cbn [app]. rewrite outs_view by apply moves_no_tj.
  cbn [view fst]. rewrite app_nil_r. reflexivity.
Qed.
Lemma block_outs_length x y st w ls lead a v : List.length (block_outs a x y st lead w ls v) = List.length ls.
Proof.
  unfold block_outs. rewrite outs_length. rewrite <- (moves_lines a ls lead w) at 2. symmetry. apply map_length.
Qed.
Lemma outs_chars l : forall v s, Forall (fun p : op * tline => is_tj (fst p) = false) l ->
  Forall (fun p : op * tline => match fst p with OTD _ _ | OTstar => True | _ => False end) l ->
  agree v s -> lines_coh (map snd l) s ->
  map shown_chars (outs v l) = map (fun t => map want (measured_all (tl_words t))) (map snd l).
Proof.
  induction l as [|[o t] l IH]; intros v s F1 F2 A C; [reflexivity|]. cbn [outs map fst snd] in *.
  destruct C as [C1 C2]. inversion F1; inversion F2; subst. cbn [fst] in *.
  assert (A1 : agree (vstep v o) s) by (destruct o; try contradiction; exact A).
  destruct (tline_shows t _ s A1 C1) as (E & A2 & _). rewrite E. f_equal. eapply IH; eauto.
Qed.
Lemma moves_kind a ls lead w :
  Forall (fun p : op * tline => match fst p with OTD _ _ | OTstar => True | _ => False end) (moves a ls lead w).
Proof.
  assert (C : forall f ls p, Forall (fun p : op * tline => match fst p with OTD _ _ | OTstar => True | _ => False end) (chained f lead ls p)).
  { intros f l0. induction l0; intros p; constructor; cbn; auto. }
  destruct a; cbn [moves]; auto; apply Forall_forall; intros p H; apply in_map_iff in H as (x & <- & _); exact I.
Qed.
Lemma block_chars x y s w ls lead a v : lines_coh ls s ->
  map shown_chars (block_outs a x y (Some s) lead w ls v) = map (fun t => map want (measured_all (tl_words t))) ls.
Proof.
  intros C. unfold block_outs. rewrite (outs_chars _ _ s).
  - rewrite moves_lines. reflexivity.
  - apply moves_no_tj.
  - apply moves_kind.
  - destruct a; repeat split.
  - rewrite moves_lines. exact C.
Qed.
(** what is shown, regardless of styles *)
Lemma outs_items l : forall v, map (flat_map sh_items) (outs v l) = map (fun p => flat_map wl_items (tl_words (snd p))) l.
Proof.
  induction l as [|[o t] l IH]; intros v; [reflexivity|]. cbn [outs map fst snd]. rewrite IH. f_equal.
  destruct (tline_still t (vstep v o)) as (_ & _ & E). exact E.
Qed.
Lemma block_items x y st w ls lead a v :
  map (flat_map sh_items) (block_outs a x y st lead w ls v) = map (fun t => flat_map wl_items (tl_words t)) ls.
Proof. unfold block_outs. rewrite outs_items. rewrite <- (moves_lines a ls lead w) at 2. rewrite map_map. reflexivity. Qed.
End Pos.

Ltac qring := lazymatch goal with |- @eq _ ?a ?b => change (@eq Qc a b) end; ring.
Ltac qfield T := lazymatch goal with |- @eq _ ?a ?b => change (@eq Qc a b) end; field; exact T.
Section QcPos.
Context {ENV : Env QcNum}.
Open Scope Qc_scope.
(** Where a line of width [w] starts in a box of width [W] whose left edge is [x]. *)
Definition line_start (a : align) (x W w : Qc) : Qc :=
  match a with
  | ALeft | AJustify => x
  | ACenter => x + (W - w) / Q2Qc 2
  | ARight => x + (W - w)
  end.
Definition at_xy (x y : Qc) (o : list (@shown QcNum)) : Prop :=
  Forall (fun s => v_x (sh_v s) = x /\ v_y (sh_v s) = y) o.
Lemma at_of v x y o : all_at v o -> v_x v = x -> v_y v = y -> at_xy x y o.
Proof. intros A X Y. eapply Forall_impl; [|exact A]. intros s (_ & B & C). split; congruence. Qed.
Lemma left_pos X lead ls : forall v y, v_lead v = lead -> v_x v = X -> v_y v = y ->
  forall k o, nth_error (outs v (map (fun l => (OTstar, l)) ls)) k = Some o ->
  at_xy X (y - Q2Qc (inject_Z (Z.of_nat (S k))) * lead) o.
Proof.
  induction ls as [|l ls IH]; intros v y L HX HY k o E; [destruct k; discriminate|].
  cbn [map outs fst snd vstep] in E. set (w := vmove v n0 (nneg (v_lead v))) in *.
  destruct (tline_still l w) as ((P1 & P2 & P3) & A & _).
  assert (WX : v_x w = X) by (subst X; unfold w, vmove; cbn [v_x]; qc).
  assert (WY : v_y w = y - lead) by (subst lead; subst y; unfold w, vmove; cbn [v_y]; qc).
  destruct k as [|k].
  - injection E as <-. eapply at_of; [exact A|exact WX|]. rewrite WY. change (Q2Qc (inject_Z (Z.of_nat 1))) with 1. qring.
  - cbn [nth_error] in E. apply (IH _ (y - lead)) in E.
    + replace (y - Q2Qc (inject_Z (Z.of_nat (S (S k)))) * lead) with (y - lead - Q2Qc (inject_Z (Z.of_nat (S k))) * lead); [exact E|].
      rewrite (Nat2Z.inj_succ (S k)). unfold Z.succ. rewrite inject_Z_plus.
      replace (Q2Qc (inject_Z (Z.of_nat (S k)) + inject_Z 1)) with (Q2Qc (inject_Z (Z.of_nat (S k))) + 1); [qring|].
      apply Qc_is_canon. rewrite this_plus, !this_Q2Qc. reflexivity.
    + rewrite P1. exact L.
    + rewrite P2. exact WX.
    + rewrite P3. exact WY.
Qed.
Lemma chained_pos (f : Qc -> Qc -> Qc) (g : Qc -> Qc) lead ls :
  (forall p w, g p + f p w = g w) ->
  forall v y (prev : Qc), v_x v = g prev -> v_y v = y ->
  forall k o l, nth_error (outs v (chained f lead ls prev)) k = Some o -> nth_error ls k = Some l ->
  at_xy (g (tl_width l)) (y - Q2Qc (inject_Z (Z.of_nat (S k))) * lead) o.
Proof.
  intros G. induction ls as [|l ls IH]; intros v y prev HX HY k o l' E EL; [destruct k; discriminate|].
  cbn [chained outs fst snd vstep] in E. set (w := vmove _ _ _) in *.
  destruct (tline_still l w) as ((P1 & P2 & P3) & A & _).
  assert (WX : v_x w = g (tl_width l)) by (rewrite <- (G prev), <- HX; reflexivity).
  assert (WY : v_y w = y - lead) by (subst y; unfold w, vmove, vlead; cbn [v_y]; qc).
  destruct k as [|k].
  - injection E as <-. injection EL as <-. eapply at_of; [exact A|exact WX|]. rewrite WY. change (Q2Qc (inject_Z (Z.of_nat 1))) with 1. qring.
  - cbn [nth_error] in E, EL. apply (IH _ (y - lead) (tl_width l)) with (l := l') in E.
    + replace (y - Q2Qc (inject_Z (Z.of_nat (S (S k)))) * lead) with (y - lead - Q2Qc (inject_Z (Z.of_nat (S k))) * lead); [exact E|].
      rewrite (Nat2Z.inj_succ (S k)). unfold Z.succ. rewrite inject_Z_plus.
      replace (Q2Qc (inject_Z (Z.of_nat (S k)) + inject_Z 1)) with (Q2Qc (inject_Z (Z.of_nat (S k))) + 1); [qring|].
      apply Qc_is_canon. rewrite this_plus, !this_Q2Qc. reflexivity.
    + rewrite P2. exact WX.
    + rewrite P3. exact WY.
    + exact EL.
Qed.
Lemma block_pos a (x y : Qc) st (lead W : Qc) ls v k o l :
  nth_error (block_outs a x y st lead W ls v) k = Some o -> nth_error ls k = Some l ->
  at_xy (line_start a x W (tl_width l)) (y - Q2Qc (inject_Z (Z.of_nat (S k))) * lead) o.
Proof.
  unfold block_outs. intros E EL.
  assert (X : v_x (before a x y st lead v) = x) by (destruct a, st; cbn; qc).
  assert (Y : v_y (before a x y st lead v) = y) by (destruct a, st; cbn; qc).
  assert (T : Q2Qc 2 <> 0) by (intros C; discriminate C).
  destruct a; cbn [moves line_start] in *.
  - eapply left_pos; eauto. destruct st; reflexivity.
  - eapply (chained_pos _ (fun w => x + (W - w) / Q2Qc 2)) in E; eauto.
    + intros p w. change (x + (W - p) / Q2Qc 2 + (p - w) / Q2Qc 2 = x + (W - w) / Q2Qc 2). qfield T.
    + rewrite X. qfield T.
  - eapply (chained_pos _ (fun w => x + (W - w))) in E; eauto.
    + intros p w. change (x + (W - p) + (p - w) = x + (W - w)). ring.
    + rewrite X. qring.
  - eapply left_pos; eauto. destruct st; reflexivity.
Qed.

(** ** displayed widths of items *)
Definition item_advance (i : titem) : Qc :=
  match i with ISlug s => slug_advance s | ISpace t st => space_advance t st end.
Definition items_advance (l : list titem) : Qc := fold_right (fun i a => item_advance i + a) 0 l.
Lemma items_advance_app a b : items_advance (a ++ b) = items_advance a + items_advance b.
Proof.
  induction a as [|i a IH]; cbn [app items_advance fold_right].
  - symmetry. apply Qcplus_0_l.
  - fold (items_advance (a ++ b)) (items_advance a). rewrite IH. apply Qcplus_assoc.
Qed.
Lemma box_items_advance b : items_advance (box_items b) = box_advance b.
Proof.
  destruct b as [s|l st]; cbn [box_items box_advance items_advance fold_right item_advance].
  - apply Qcplus_0_r.
  - induction l as [|p l IH]; [reflexivity|]. cbn [map fold_right item_advance]. rewrite IH. reflexivity.
Qed.
Lemma wl_items_advance w : items_advance (wl_items w) = wl_advance w.
Proof.
  induction w as [b|w|w IH c]; cbn [wl_items wl_advance].
  - apply box_items_advance.
  - rewrite items_advance_app. unfold word_advance. f_equal.
    + unfold boxes_advance. induction (w_boxes w) as [|b l IH]; [reflexivity|].
      cbn [flat_map fold_right]. rewrite items_advance_app, box_items_advance, IH. reflexivity.
    + destruct (w_tail w); [|reflexivity]. cbn [items_advance fold_right item_advance]. apply Qcplus_0_r.
  - exact IH.
Qed.
Lemma all_items_advance ws : items_advance (flat_map wl_items ws) = all_advance ws.
Proof.
  induction ws as [|w ws IH]; [reflexivity|]. cbn [flat_map]. rewrite items_advance_app, wl_items_advance, IH.
  symmetry. apply all_advance_cons.
Qed.
Lemma sum_advance ws : Forall wl_ok ws -> nsum (map wl_width ws) = all_advance ws.
Proof.
  induction 1 as [|w ws H _ IH]; [reflexivity|]. cbn [map]. rewrite nsum_cons_Qc, IH, all_advance_cons, wl_width_ok by exact H. reflexivity.
Qed.
Lemma text_lines_width gs : forall st ls, text_lines gs st = Ok ls ->
  Forall (fun l => tl_width l = all_advance (tl_words l)) ls.
Proof.
  induction gs as [|g gs IH]; intros st ls E; cbn [text_lines] in E; [injection E as <-; constructor|].
  destruct (into_words g st) as [[[cmd ws] ex]|] eqn:EW; [|discriminate]. cbn [bind] in E.
  assert (W : nsum (map wl_width ws) = all_advance ws) by (apply sum_advance; eapply into_words_ok; eauto).
  destruct ex.
  - destruct (text_lines gs _) as [r|] eqn:ER; [|discriminate]. cbn [bind] in E. apply Ok_inj in E. subst ls.
    constructor; [exact W|eapply IH; eauto].
  - apply Ok_inj in E. subst ls. constructor; [exact W|constructor].
Qed.
End QcPos.
