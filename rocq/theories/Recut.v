(** * Recut: strings cut between words, through lines, paragraphs and texts. *)
From Coq Require Import QArith Qcanon.
From Verif Require Import Base Gfmt Num Fonts State Style TextSpec StateProofs Words WordsSpec WordProofs WordOps Parse Render
  Firstfit KnuthPlass Optimum Common Show TextBlock Draw Layout Regroup.
From Coq Require Import Lia.
Local Open Scope list_scope.
Open Scope nat_scope.

Section Recut.
Context {ENV : Env QcNum}.
Variable SPLIT : all_split.
Variable b : str.
Hypothesis BT : begins_text b.
Notation psg := (@passage QcNum).
Lemma sn_some x y be af : split_newline x = Some (be, af) -> split_newline (x ++ y) = Some (be, af ++ y).
Proof.
  revert be af. induction x as [|c x IH]; intros be af E; [discriminate|]. cbn [split_newline app] in *.
  destruct (c =? 10)%N; [injection E as <- <-; reflexivity|]. destruct x as [|d x]; [discriminate|]. cbn [app].
  destruct ((c =? 13) && (d =? 10))%N; [injection E as <- <-; reflexivity|].
  destruct (split_newline (d :: x)) as [[b1 a1]|]; [|discriminate]. injection E as <- <-. cbn [app] in IH. rewrite (IH _ _ eq_refl). reflexivity.
Qed.
Lemma sn_none x y : split_newline x = None -> x <> [] -> List.last x 0%N <> 13%N ->
  split_newline (x ++ y) = option_map (fun p => (x ++ fst p, snd p)) (split_newline y).
Proof.
  induction x as [|c x IH]; intros E N L; [congruence|]. cbn [split_newline app] in *. destruct (c =? 10)%N eqn:C; [discriminate|].
  destruct x as [|d x].
  - cbn [app]. destruct y as [|e y]; [reflexivity|]. cbn [List.last] in L. apply N.eqb_neq in L. rewrite L. cbn [andb].
    destruct (split_newline (e :: y)) as [[]|]; reflexivity.
  - cbn [app]. destruct ((c =? 13) && (d =? 10))%N; [discriminate|]. destruct (split_newline (d :: x)) as [p|]; [discriminate|].
    cbn [app] in IH. rewrite IH; [|reflexivity|discriminate|exact L]. destruct (split_newline y) as [[]|]; reflexivity.
Qed.
Lemma clean_last x : clean b x -> List.last x 0%N <> 13%N.
Proof. intros (u & c & -> & H & _). rewrite last_last. intros ->. discriminate. Qed.
Lemma clean_other b' x : hd 0%N b' = hd 0%N b -> clean b x -> clean b' x.
Proof. intros H (u & c & E & A & B & C). exists u, c. rewrite H. auto. Qed.
Lemma nb : b <> []. Proof. apply begins_nonempty. exact BT. Qed.
(** two groups: the same, or a passage of one is cut in two *)
Definition gcut (g g' : list psg) : Prop := exists b', b' <> [] /\ pcut b' g g'.
(** ... or one begins with an empty passage more *)
Definition gadd (g g' : list psg) : Prop := exists be r, g = (NoOp, be) :: r /\ g' = (NoOp, []) :: (NoOp, be) :: r.
Definition gsame (g g' : list psg) : Prop := g = g' \/ gcut g g' \/ gadd g g'.
Lemma gcut_cons p g g' : gcut g g' -> gcut (p :: g) (p :: g').
Proof. intros (b' & N & P). exists b'. split; [exact N|]. destruct P as [l k x r C]. exact (pcut_i b' (p :: l) k x r C). Qed.
Definition next_same (n n' : option (@command QcNum * str * list psg)) : Prop :=
  match n, n' with None, None => True | Some (_, t, i), Some (_, t', i') => t = t' /\ i = i' | _, _ => False end.
Lemma group_cut : forall n it it' cmd txt txt' cont, List.length it <= n -> pst b it txt it' txt' ->
  let '(g, nx) := group (S (List.length it)) cmd txt cont it in
  let '(g', nx') := group (S (List.length it')) cmd txt' cont it' in
  (gcut g g' /\ next_same nx nx')
  \/ (g = g' /\ exists c t i t' i', nx = Some (c, t, i) /\ nx' = Some (c, t', i') /\ pst b i t i' t').
Proof.
  induction n as [n IH] using lt_wf_ind. intros it it' cmd txt txt' cont L [(-> & P)|(C & -> & ->)].
  - cbn [group]. destruct (split_newline txt') as [[be af]|].
    + right. split; [reflexivity|]. do 5 eexists. split; [reflexivity|]. split; [reflexivity|]. left. split; [reflexivity|exact P].
    + destruct (pcut_cons _ _ _ P) as (k & t & r & k' & t' & r' & -> & -> & <- & PP).
      assert (LR : List.length r < n) by (eapply Nat.lt_le_trans; [|exact L]; apply Nat.lt_succ_diag_r).
      specialize (IH (List.length r) LR r r' k t t' false (le_n _) PP). cbn [List.length].
      destruct (group (S (List.length r)) k t false r) as [g nx]. destruct (group (S (List.length r')) k t' false r') as [g' nx'].
      destruct IH as [(G & NX)|(-> & R)]; [left; split; [apply gcut_cons; exact G|exact NX]|right; split; [reflexivity|exact R]].
  - assert (NX := clean_some _ _ C). cbn [List.length group]. destruct (split_newline txt') as [[be af]|] eqn:E.
    + rewrite (sn_some _ b _ _ E). right. split; [reflexivity|]. do 5 eexists. split; [reflexivity|]. split; [reflexivity|]. right.
      assert (EX : exists pre, txt' = pre ++ af).
      { clear -E. revert be af E. induction txt' as [|c x IH]; intros be af E; [discriminate|]. cbn [split_newline] in E.
        destruct (c =? 10)%N; [injection E as _ <-; exists [c]; reflexivity|]. destruct x as [|d x]; [discriminate|].
        destruct ((c =? 13) && (d =? 10))%N; [injection E as _ <-; exists [c; d]; reflexivity|].
        destruct (split_newline (d :: x)) as [[b1 a1]|]; [|discriminate]. injection E as _ <-. destruct (IH _ _ eq_refl) as (pre & EP). exists (c :: pre). rewrite EP. reflexivity. }
      assert (NA : af <> []).
      { intros ->. assert (X : List.last txt' 0%N = 10%N).
        { clear -E. revert be E. induction txt' as [|c x IH]; intros be E; [discriminate|]. cbn [split_newline] in E.
          destruct (c =? 10)%N eqn:C; [injection E as _ ->; apply N.eqb_eq in C; exact C|]. destruct x as [|d x]; [discriminate|].
          destruct ((c =? 13) && (d =? 10))%N eqn:CD.
          - injection E as _ ->. apply andb_true_iff in CD as (_ & CD). apply N.eqb_eq in CD. exact CD.
          - destruct (split_newline (d :: x)) as [[b1 a1]|]; [|discriminate]. injection E as _ ->. exact (IH _ eq_refl). }
        destruct C as (u & c & -> & H & _). rewrite last_last in X. subst c. discriminate. }
      destruct EX as (pre & EX). rewrite EX in C. split; [exact (clean_tail _ _ _ C NA)|]. split; reflexivity.
    + rewrite (sn_none _ b E NX (clean_last _ C)). destruct (split_newline b) as [[be af]|] eqn:EB; cbn [option_map fst snd].
      * left. split; [|split; reflexivity]. assert (NE := begins_split _ _ _ BT EB). exists be. split; [exact NE|].
        apply (pcut_i be [] (if cont then NoOp else cmd) txt' []). apply clean_other; [|exact C].
        clear -EB NE BT. destruct b as [|c x]; [discriminate|]. cbn [split_newline] in EB. destruct (c =? 10)%N; [injection EB as <- <-; congruence|].
        destruct x as [|d x]; [discriminate|]. destruct ((c =? 13) && (d =? 10))%N; [injection EB as <- <-; congruence|].
        destruct (split_newline (d :: x)) as [[]|]; [injection EB as <- <-; reflexivity|discriminate].
      * destruct it as [|[k t] r].
        -- left. split; [|exact Logic.I]. exists b. split; [exact nb|]. apply (pcut_i b [] (if cont then NoOp else cmd) txt' []). exact C.
        -- cbn [List.length]. destruct (group (S (List.length r)) k t false r) as [g nx]. left. split; [|destruct nx as [[[? ?] ?]|]; cbn; auto].
           exists b. split; [exact nb|]. apply (pcut_i b [] (if cont then NoOp else cmd) txt' g). exact C.
Qed.
Lemma group_cont : forall f c c' txt it, fst (group f c txt true it) = fst (group f c' txt true it) /\ next_same (snd (group f c txt true it)) (snd (group f c' txt true it)).
Proof.
  intros [|f] c c' txt it; cbn [group]; [split; [reflexivity|exact Logic.I]|]. destruct (split_newline txt) as [[be af]|]; [split; [reflexivity|split; reflexivity]|].
  destruct it as [|[k t] r]; [split; [reflexivity|exact Logic.I]|]. destruct (group f k t false r) as [g nx]. split; [reflexivity|]. destruct nx as [[[? ?] ?]|]; cbn; auto.
Qed.
Lemma groups_cont : forall f c c' txt it, @groups QcNum f c txt true it = groups f c' txt true it.
Proof.
  induction f as [|f IH]; intros c c' txt it; [reflexivity|]. cbn [groups]. destruct (group_cont (S (List.length it)) c c' txt it) as (A & B).
  destruct (group (S (List.length it)) c txt true it) as [g nx]. destruct (group (S (List.length it)) c' txt true it) as [g' nx']. cbn [fst snd] in *. subst g'. f_equal.
  destruct nx as [[[k t] i]|], nx' as [[[k' t'] i']|]; cbn in B; try contradiction; [|reflexivity]. destruct B as (<- & <-). apply IH.
Qed.
Lemma same_refl gs : Forall2 gsame gs gs.
Proof. induction gs; constructor; [left; reflexivity|assumption]. Qed.
Lemma groups_cut : forall f it it' cmd txt txt' cont, pst b it txt it' txt' -> Forall2 gsame (groups f cmd txt cont it) (groups f cmd txt' cont it').
Proof.
  induction f as [|f IH]; intros it it' cmd txt txt' cont P; [constructor|]. cbn [groups].
  assert (G := group_cut _ it it' cmd txt txt' cont (le_n _) P).
  destruct (group (S (List.length it)) cmd txt cont it) as [g nx]. destruct (group (S (List.length it')) cmd txt' cont it') as [g' nx'].
  destruct G as [(G & NX)|(<- & c & t & i & t' & i' & -> & -> & PP)].
  - constructor; [right; left; exact G|]. destruct nx as [[[k t] i]|], nx' as [[[k' t'] i']|]; cbn in NX; try contradiction; [|constructor].
    destruct NX as (<- & <-). rewrite (groups_cont f k k'). apply same_refl.
  - constructor; [left; reflexivity|]. apply IH. exact PP.
Qed.
Lemma splitlines_cut ps ps' : pcut b ps ps' -> Forall2 gsame (splitlines ps) (splitlines ps').
Proof.
  intros P. assert (TS : text_size ps = text_size ps').
  { destruct P as [l k x r C]. unfold text_size. rewrite !map_app. cbn [map snd]. rewrite !list_sum_app, app_length. cbn [list_sum fold_right]. lia. }
  destruct (pcut_cons _ _ _ P) as (k & t & r & k' & t' & r' & -> & -> & <- & PP). unfold splitlines. rewrite TS. apply groups_cut. exact PP.
Qed.
Lemma fold_noop : forall (it : list psg) st buf, fold_commands it st (NoOp :: NoOp :: buf) = fold_commands it st (NoOp :: buf).
Proof.
  induction it as [|[k t] it IH]; intros st buf; cbn [fold_commands]; [reflexivity|]. cbn [app]. destruct t; [apply IH|reflexivity].
Qed.
Lemma words_same g g' st : gsame g g' -> into_words g st = into_words g' st.
Proof.
  intros [->|[(b' & N & P)|(be & r & -> & ->)]]; [reflexivity|exact (words_cut SPLIT b' N g g' st P)|].
  unfold into_words. cbn [fold_commands app]. destruct be; [|reflexivity]. change (apply NoOp (apply NoOp st)) with (apply NoOp st). cbn [app]. rewrite fold_noop. reflexivity.
Qed.
(** ** Strings cut after a line break *)
Section Newline.
Variable b2 : str.
Hypothesis NB2 : b2 <> [].
Definition nl (x : str) : Prop := exists u, x = u ++ [10%N].
Inductive ncut : list psg -> list psg -> Prop :=
| ncut_i l k x r : nl x -> ncut (l ++ (k, x ++ b2) :: r) (l ++ (k, x) :: (NoOp, b2) :: r).
Definition nst (cont : bool) (it : list psg) (txt : str) (it' : list psg) (txt' : str) : Prop :=
  (txt = txt' /\ ncut it it') \/ (nl txt' /\ txt = txt' ++ b2 /\ it' = (NoOp, b2) :: it)
  \/ (cont = true /\ txt' = [] /\ txt = b2 /\ it' = (NoOp, b2) :: it).
Lemma ncut_cons it it' : ncut it it' -> exists (k : @command QcNum) (t : str) (r : list psg) (t' : str) (r' : list psg), it = @cons psg (k, t) r /\ it' = @cons psg (k, t') r' /\ nst false r t r' t'.
Proof.
  intros [l k x r C]. destruct l as [|[k0 t0] l]; cbn [app]; do 5 eexists; (split; [reflexivity|]); (split; [reflexivity|]).
  - right. left. auto.
  - left. split; [reflexivity|]. constructor; exact C.
Qed.
Lemma nl_split x : nl x -> exists be af, split_newline x = Some (be, af) /\ (af = [] \/ nl af).
Proof.
  intros (u & ->). induction u as [|c u IH]; [do 2 eexists; split; [reflexivity|left; reflexivity]|]. cbn [app split_newline].
  destruct (c =? 10)%N. { do 2 eexists. split; [reflexivity|]. right. exists u. reflexivity. }
  destruct IH as (be & af & E & H). destruct u as [|d u].
  - cbn [app]. destruct ((c =? 13) && (10 =? 10))%N; [do 2 eexists; split; [reflexivity|left; reflexivity]|]. cbn [app] in E. rewrite E. do 2 eexists. split; [reflexivity|exact H].
  - cbn [app] in *. destruct ((c =? 13) && (d =? 10))%N.
    + do 2 eexists. split; [reflexivity|]. right. exists u. reflexivity.
    + rewrite E. do 2 eexists. split; [reflexivity|exact H].
Qed.
Lemma group_ncut : forall n it it' cmd txt txt' cont, List.length it <= n -> nst cont it txt it' txt' ->
  let '(g, nx) := group (S (List.length it)) cmd txt cont it in
  let '(g', nx') := group (S (List.length it')) cmd txt' cont it' in
  ((g = g' \/ (cont = true /\ gadd g g')) /\ next_same nx nx')
  \/ (g = g' /\ exists c t i t' i', nx = Some (c, t, i) /\ nx' = Some (c, t', i') /\ nst true i t i' t').
Proof.
  induction n as [n IH] using lt_wf_ind. intros it it' cmd txt txt' cont L [(-> & P)|[(C & -> & ->)|(-> & -> & -> & ->)]].
  - cbn [group]. destruct (split_newline txt') as [[be af]|].
    + right. split; [reflexivity|]. do 5 eexists. split; [reflexivity|]. split; [reflexivity|]. left. split; [reflexivity|exact P].
    + destruct (ncut_cons _ _ P) as (k & t & r & t' & r' & -> & -> & PP).
      assert (LR : List.length r < n) by (eapply Nat.lt_le_trans; [|exact L]; apply Nat.lt_succ_diag_r).
      specialize (IH (List.length r) LR r r' k t t' false (le_n _) PP). cbn [List.length].
      destruct (group (S (List.length r)) k t false r) as [g nx]. destruct (group (S (List.length r')) k t' false r') as [g' nx'].
      destruct IH as [([->|(X & _)] & NX)|(-> & R)]; [left; split; [left; reflexivity|exact NX]|discriminate|right; split; [reflexivity|exact R]].
  - cbn [List.length group]. destruct (nl_split _ C) as (be & af & E & H). rewrite E, (sn_some _ b2 _ _ E). right. split; [reflexivity|].
    do 5 eexists. split; [reflexivity|]. split; [reflexivity|]. destruct H as [->|H]; [right; right; auto|right; left; auto].
  - cbn [List.length group split_newline]. destruct (split_newline b2) as [[be af]|].
    + left. split; [right; split; [reflexivity|]; exists be, []; split; reflexivity|split; reflexivity].
    + destruct it as [|[k t] r].
      * left. split; [right; split; [reflexivity|]; exists b2, []; split; reflexivity|exact Logic.I].
      * cbn [List.length]. destruct (group (S (List.length r)) k t false r) as [g nx]. left.
        split; [right; split; [reflexivity|]; exists b2, g; split; reflexivity|]. destruct nx as [[[? ?] ?]|]; cbn; auto.
Qed.
Lemma groups_ncut : forall f it it' cmd txt txt' cont, nst cont it txt it' txt' -> Forall2 gsame (groups f cmd txt cont it) (groups f cmd txt' cont it').
Proof.
  induction f as [|f IH]; intros it it' cmd txt txt' cont P; [constructor|]. cbn [groups].
  assert (G := group_ncut _ it it' cmd txt txt' cont (le_n _) P).
  destruct (group (S (List.length it)) cmd txt cont it) as [g nx]. destruct (group (S (List.length it')) cmd txt' cont it') as [g' nx'].
  destruct G as [(G & NX)|(<- & c & t & i & t' & i' & -> & -> & PP)].
  - constructor; [destruct G as [->|(_ & G)]; [left; reflexivity|right; right; exact G]|]. destruct nx as [[[k t] i]|], nx' as [[[k' t'] i']|]; cbn in NX; try contradiction; [|constructor].
    destruct NX as (<- & <-). rewrite (groups_cont f k k'). apply same_refl.
  - constructor; [left; reflexivity|]. apply IH. exact PP.
Qed.
Lemma splitlines_ncut ps ps' : ncut ps ps' -> Forall2 gsame (splitlines ps) (splitlines ps').
Proof.
  intros P. assert (TS : text_size ps = text_size ps').
  { destruct P as [l k x r C]. unfold text_size. rewrite !map_app. cbn [map snd]. rewrite !list_sum_app, app_length. cbn [list_sum fold_right]. lia. }
  destruct (ncut_cons _ _ P) as (k & t & r & t' & r' & -> & -> & PP). unfold splitlines. rewrite TS. apply groups_ncut. exact PP.
Qed.
End Newline.
(** ** Leading, passages, paragraphs, texts *)
Lemma lead_two l k x y r st : x <> [] -> y <> [] -> max_lead (l ++ (k, x ++ y) :: r) st = max_lead (l ++ (k, x) :: (NoOp, y) :: r) st.
Proof.
  intros NX NB. unfold max_lead.
  assert (X : forall st acc, max_lead_from (l ++ (k, x ++ y) :: r) st acc = max_lead_from (l ++ (k, x) :: (NoOp, y) :: r) st acc).
  { induction l as [|[k0 t0] l IH]; intros s acc; cbn [app max_lead_from]; [|apply IH].
    destruct x as [|d x]; [congruence|]. cbn [app]. destruct y as [|e b1]; [congruence|]. change (apply NoOp (apply k s)) with (apply k s). f_equal.
    set (L := lead (apply k s)). unfold nmax. cbn [nltb QcNum]. destruct (Qcltb acc L) eqn:E; [|rewrite E; reflexivity].
    assert (EL : Qcltb L L = false). { apply Bool.not_true_iff_false. intros H. apply Qcltb_lt in H. exact (Qclt_not_le _ _ H (Qcle_refl _)). }
    rewrite EL. reflexivity. }
  rewrite X. reflexivity.
Qed.
Lemma lead_cut ps ps' st : pcut b ps ps' -> max_lead ps st = max_lead ps' st.
Proof. intros [l k x r C]. exact (lead_two _ _ _ _ _ _ (clean_some _ _ C) nb). Qed.
Lemma lead_ncut b2 ps ps' st : b2 <> [] -> ncut b2 ps ps' -> max_lead ps st = max_lead ps' st.
Proof. intros N [l k x r (u & ->)]. apply lead_two; [destruct u; discriminate|exact N]. Qed.
Lemma flatten_two a b2 base st c c' : cut a b2 c c' -> exists l k r, flatten base st c = l ++ (k, a ++ b2) :: r /\ flatten base st c' = l ++ (k, a) :: (NoOp, b2) :: r
  /\ flatten_fonts base st c = flatten_fonts base st c'.
Proof.
  intros CU.
  assert (X : forall base todo, exists l k r, fst (flatten_items base c todo) = l ++ (k, a ++ b2) :: r /\ fst (flatten_items base c' todo) = l ++ (k, a) :: ([], b2) :: r
     /\ snd (flatten_items base c todo) = snd (flatten_items base c' todo)).
  { induction CU as [l r|l s c c' r _ IH]; intros bs todo; rewrite !items_app.
    - cbn [fst snd]. rewrite !items_cons. cbn [flatten_item fst snd app].
      do 3 eexists. split; [reflexivity|]. split; reflexivity.
    - cbn [fst snd]. rewrite !items_cons. cbn [fst snd]. rewrite !flatten_item_span.
      destruct (IH (full_or bs s) (snd (flatten_items bs l todo) ++ style_diff s bs)) as (l1 & k & r1 & E1 & E2 & E3).
      destruct (flatten_items (full_or bs s) c _) as [p t]. destruct (flatten_items (full_or bs s) c' _) as [p' t']. cbn [fst snd] in *. subst p p' t'.
      exists (fst (flatten_items bs l todo) ++ l1), k. eexists. rewrite <- !app_assoc. cbn [app]. split; [reflexivity|]. split; reflexivity. }
  unfold flatten, flatten_fonts, flatten_raw. rewrite !flatten_item_span. destruct (X (full_or base st) ([] ++ style_diff st base)) as (l & k & r & E1 & E2 & E3).
  destruct (flatten_items _ c _) as [p t]. destruct (flatten_items _ c' _) as [p' t']. cbn [fst snd] in *. subst p p'.
  unfold passages_of. rewrite !map_app. cbn [map fst snd]. do 3 eexists. split; [reflexivity|]. split; [reflexivity|].
  rewrite !flat_map_app. cbn [flat_map fst]. reflexivity.
Qed.
Lemma flatten_cut a base st c c' : clean b a -> cut a b c c' -> pcut b (flatten base st c) (flatten base st c') /\ flatten_fonts base st c = flatten_fonts base st c'.
Proof. intros CL CU. destruct (flatten_two _ _ base st _ _ CU) as (l & k & r & -> & -> & E). split; [apply pcut_i; exact CL|exact E]. Qed.
Lemma flatten_ncut a b2 base st c c' : nl a -> cut a b2 c c' -> ncut b2 (flatten base st c) (flatten base st c') /\ flatten_fonts base st c = flatten_fonts base st c'.
Proof. intros CL CU. destruct (flatten_two _ _ base st _ _ CU) as (l & k & r & -> & -> & E). split; [apply ncut_i; exact CL|exact E]. Qed.
Lemma para_cut fuel p lead : forall gs gs' cs st, Forall2 gsame gs gs' -> para_loop fuel p gs cs st lead = para_loop fuel p gs' cs st lead.
Proof.
  intros gs gs' cs st F. revert cs st. induction F as [|g g' gs gs' G _ IH]; intros cs st; [reflexivity|]. cbn [para_loop]. unfold fill_paragraph.
  rewrite (words_same _ _ st G). destruct (into_words g' st) as [[[cmd ws] ex]|e]; cbn [bind]; [|reflexivity].
  destruct (indent_first ws (p_indent p)) as [ws'|e]; cbn [bind]; [|reflexivity]. destruct (shape _ _ _ _ _ _) as [chunks|e]; cbn [bind]; [|reflexivity].
  destruct (rev _) as [|col fl]; [reflexivity|]. destruct ex; [|reflexivity]. rewrite IH. reflexivity.
Qed.
Lemma text_cut : forall gs gs' st, Forall2 gsame gs gs' -> text_lines gs st = text_lines gs' st.
Proof.
  intros gs gs' st F. revert st. induction F as [|g g' gs gs' G _ IH]; intros st; [reflexivity|]. cbn [text_lines].
  rewrite (words_same _ _ st G). destruct (into_words g' st) as [[[cmd ws] ex]|e]; cbn [bind]; [|reflexivity]. destruct ex; [|reflexivity]. rewrite IH. reflexivity.
Qed.
End Recut.
