(** * LayoutInside: the lines of ragged paragraphs stay inside their columns, sideways too
    (exact rational numbers). *)
From Coq Require Import QArith Qcanon Lqa.
From Verif Require Import Base Num Fonts State Style TextSpec StateProofs Words WordsSpec WordProofs WordOps
  Parse Render RenderSpec RenderProofs Firstfit LineSpec FirstfitProofs WordWidth FirstfitWidth KnuthPlass Optimum OptimumLines
  Show Common Draw TextBlock TextPos Layout LayoutSpec LayoutProofs LayoutText LayoutPages LayoutRoom Properties_Style
  Properties_Words Properties_Text Properties_Firstfit Properties_Optimum.
Open Scope nat_scope.

Section Inside.
Context {ENV : Env QcNum}.
Local Notation colfill := (@colfill QcNum).
Local Notation cols_of cs := (fun i : nat => (c_width (cf_box (cs i)) : Qc, cf_free (cs i) : Qc)).

(** with optimal line breaks not centred or right-aligned (see C69) *)
Definition placed_well (p : @para QcNum) : Prop :=
  match p_optimal p with Some _ => p_align p = ALeft \/ p_align p = AJustify | None => True end.
Definition tight (p : @para QcNum) : Prop := p_optimal p <> None /\ p_align p = AJustify.
(** a line in a column of width W; TIGHT: are there justified paragraphs with optimal line breaks? *)
Variable TIGHT : Prop.
Definition line_in (a : align) (W : Qc) (l : @tline QcNum) : Prop :=
  tl_words l = [] \/ one_fragment (tl_words l)
  \/ ((all_advance (tl_words l) <= W)%Qc /\ (a = ALeft \/ a = AJustify \/ tl_width l = all_advance (tl_words l)))
  \/ (exists ws w, tl_words l = ws ++ [w] /\ wl_tail w <> None /\ (all_advance (ws ++ [wl_pruned w]) <= W)%Qc)
  \/ (TIGHT /\ ~ (0 < gaps (tl_words l))%Qc).
Lemma pruned_same w : wl_tail w = None -> wl_pruned w = w.
Proof.
  induction w as [b|w|w IH c]; cbn; intros H; [reflexivity| |rewrite (IH H); reflexivity].
  unfold word_pruned. rewrite H. reflexivity.
Qed.
Lemma line_in_pruned a W l : a = AJustify \/ tl_width l = all_advance (tl_words l) -> (all_advance (prune_last (tl_words l)) <= W)%Qc -> line_in a W l.
Proof.
  intros E H. unfold line_in. destruct (rev (tl_words l)) as [|w r] eqn:R.
  - left. rewrite <- (rev_involutive (tl_words l)), R. reflexivity.
  - assert (D : tl_words l = rev r ++ [w]) by (rewrite <- (rev_involutive (tl_words l)), R; reflexivity).
    rewrite D, prune_last_app in H. destruct (wl_tail w) as [t|] eqn:T.
    + right; right; right; left. exists (rev r), w. split; [exact D|]. split; [congruence|exact H].
    + rewrite (pruned_same w T), <- D in H. right; right; left. tauto.
Qed.

Lemma removelast_last {A} (P R : A -> Prop) l :
  Forall P (removelast l) -> (forall x, List.last (map Some l) None = Some x -> R x) -> Forall (fun x => P x \/ R x) l.
Proof.
  induction l as [|x [|y l] IH]; intros F L; [constructor| |].
  - constructor; [right; apply L; reflexivity|constructor].
  - change (removelast (x :: y :: l)) with (x :: removelast (y :: l)) in F. inversion F; subst.
    constructor; [left; assumption|]. apply IH; auto.
Qed.
Lemma placed_nth {A} (chunks : list (list A)) : forall (cols : nat -> @num QcNum * @num QcNum) i ls l,
  nth_error chunks i = Some ls -> In l ls -> In (fst (cols i), l) (placed cols chunks).
Proof.
  induction chunks as [|c chunks IH]; intros cols [|i] ls l N I; try discriminate; cbn [placed]; apply in_or_app.
  - injection N as ->. left. apply in_map_iff. eauto.
  - right. exact (IH (fun j => cols (S j)) i ls l N I).
Qed.
Lemma steps_empty q ls z : steps q ls z -> opt_list q = [] -> Forall (fun p : @num QcNum * line => l_words (snd p) = []) ls /\ opt_list z = [].
Proof.
  induction 1 as [|ws w q l r z T _ IH]; intros E; [split; auto|]. cbn in E. subst ws.
  cbn in T. injection T as <- <-. destruct (IH eq_refl) as (A & B). split; [|exact B]. constructor; auto.
Qed.
Lemma placed_justified cols (cs cs' : list (list line)) : Forall2 (Forall2 (fun l l' => justify l = Ok l')) cs cs' ->
  Forall2 (fun p p' : @num QcNum * line => fst p' = fst p /\ justify (snd p) = Ok (snd p')) (placed cols cs) (placed cols cs').
Proof.
  intros F. revert cols. induction F as [|a b cs cs' H _ IH]; intros cols; cbn; [constructor|].
  apply Forall2_app; auto. induction H; cbn; constructor; auto.
Qed.
(** the width of justified lines, whatever the sizes *)
Lemma justified_fits ws cols ae lead av fuel cs : Forall made ws -> ws <> [] ->
  ff_shape fuel ws cols ae lead av true = Ok cs ->
  Forall (fun p => (all_advance (l_words (snd p)) <= fst p)%Qc \/ one_fragment (l_words (snd p))
    \/ (all_advance (prune_last (l_words (snd p))) <= fst p)%Qc) (placed cols cs).
Proof.
  intros M NE E. apply ff_justified in E as (cs0 & E0 & F). apply ff_plain in E0 as (E & _).
  apply steps_width in E as (E1 & E2 & E3).
  2:{ cbn. eapply Forall_impl; [|exact M]. intros w. apply made_ok. }
  apply (placed_justified cols) in F. specialize (E3 eq_refl NE). revert F E1 E2 E3. generalize (placed cols cs0) (placed cols cs).
  induction 1 as [|p p' l l' [P1 P2] P IH]; intros E1 E2 E3; [constructor|].
  inversion E1 as [|? ? [O W] E1']; subst. destruct l as [|p1 l].
  - inversion P; subst. constructor; [|constructor]. destruct (E3 p eq_refl) as [Z X]. apply justify_zero in P2; [|exact Z].
    destruct p as [pw pl], p' as [pw' pl']. cbn [fst snd] in *. subst pw' pl'. tauto.
  - change (removelast (p :: p1 :: l)) with (p :: removelast (p1 :: l)) in E2.
    inversion E2 as [|? ? [S X] E2']; subst. constructor; [|apply IH; auto]. clear E1 E2 E3 IH P.
    destruct p as [pw pl], p' as [pw' pl']. cbn [fst snd] in *. subst pw'.
    destruct (justify_width _ _ O W P2) as [J1 J2]. destruct (Qc_eq_dec (tail_sizes (l_words pl)) 0%Qc) as [Z|Z].
    + rewrite (J1 Z). rewrite <- W. tauto.
    + destruct (J2 Z) as [J _]. left. rewrite J, S. apply Qcle_refl.
Qed.
Lemma steps_empty_justified cols (cs cs' : list (list line)) : Forall2 (Forall2 (fun l l' => justify l = Ok l')) cs cs' ->
  Forall (fun p : @num QcNum * line => l_words (snd p) = []) (placed cols cs) ->
  Forall (fun p : @num QcNum * line => l_words (snd p) = []) (placed cols cs').
Proof.
  intros F E. apply (placed_justified cols) in F. revert E. induction F as [|p p' l l' [_ J] _ IH]; intros E; [constructor|].
  inversion E as [|? ? E1 E2]; subst. constructor; auto. unfold justify in J. rewrite E1 in J. cbn in J.
  apply Ok_inj in J. destruct p as [w x], p' as [w' x']. cbn in *. subst x'. exact E1.
Qed.
Lemma shape_in fuel p g st cmd ws ex ws' (cols : nat -> Qc * Qc) ae (lead : Qc) chunks i ls : placed_well p -> (tight p -> TIGHT) ->
  (0 < lead)%Qc -> (forall i, 0 <= snd (cols i))%Qc ->
  into_words g st = Ok (cmd, ws, ex) -> indent_first ws (p_indent p) = Ok ws' ->
  shape fuel p ws' cols ae lead = Ok chunks -> nth_error chunks i = Some ls ->
  Forall (line_in (p_align p) (fst (cols i))) ls.
Proof.
  intros RA HQ LP C0 W I E N. unfold shape in E. unfold placed_well in RA.
  assert (X : forall A (f : A -> tline) (out : list (list A)) (R : Qc -> A -> Prop),
    chunks = map (map f) out -> Forall (fun wl => R (fst wl) (snd wl)) (placed cols out) ->
    (forall w a, R w a -> line_in (p_align p) w (f a)) -> Forall (line_in (p_align p) (fst (cols i))) ls).
  { intros A f out R -> F H. rewrite nth_error_map in N. destruct (nth_error out i) as [l|] eqn:NE; [|discriminate].
    injection N as <-. apply Forall_forall. intros x IX. apply in_map_iff in IX as (y & <- & IY).
    rewrite Forall_forall in F. apply H. exact (F _ (placed_nth _ _ _ _ _ NE IY)). }
  unfold tight in HQ. destruct (p_optimal p) as [[tolerance P]|].
  - apply rmap_inv in E as (out & E & ->).
    assert (PW : paragraph_words ws') by (eapply pw_indented; [eapply pw_parsed; exact W|exact I]).
    destruct ws' as [|w0 ws'].
    + apply (X _ opt_tline out (fun _ l => ol_words l = [])); [reflexivity| |intros w a H; left; exact H].
      cbn in E. destruct (Qceqb _ _); [discriminate|].
      match type of E with context [if ?b then _ else _] => destruct b end; cbn in E; apply Ok_inj in E; subst out;
        repeat constructor.
    + destruct RA as [RA|RA]; rewrite RA in *; cbn [is_justify negb] in E.
      * apply (X _ opt_tline out (fun w l => all_advance (ol_words l) <= w)%Qc); [reflexivity| |].
        -- eapply C44_ragged_lines_fit; eauto. discriminate.
        -- intros w a H. right; right; left. split; auto.
      * apply (X _ opt_tline out (fun w l => (0 < gaps (ol_words l))%Qc -> (all_advance (ol_words l) <= w)%Qc)); [reflexivity| |].
        -- apply Forall_forall. intros [w l] IX G. apply In_nth_error in IX as (m & NM). cbn [fst snd] in *.
           pose proof (C47_justified_lines_partial _ _ _ _ _ _ _ _ _ _ _ _ _ PW ltac:(discriminate) LP C0 E NM G) as H.
           destruct (_ =? _); [exact H|]. destruct H as [H|H]; [rewrite H; apply Qcle_refl|].
           rewrite <- H. clear -G. set (x := all_advance (ol_words l)). set (y := gaps (ol_words l)) in *. clearbody x y. qc.
        -- intros w a H. unfold line_in. cbn [opt_tline tl_words tl_width].
           destruct (Qclt_le_dec 0 (gaps (ol_words a))) as [G|G]; [right; right; left; auto|].
           right; right; right; right. split; [apply HQ; split; [discriminate|reflexivity]|]. apply Qcle_not_lt, G.
  - apply rmap_inv in E as (out & E & ->).
    destruct ws' as [|w0 ws'].
    + apply (X _ ff_tline out (fun _ l => l_words l = [])); [reflexivity| |intros w a H; left; exact H].
      destruct (is_justify (p_align p)).
      * apply ff_justified in E as (cs0 & E & F). apply ff_plain in E as (E & _). apply steps_empty in E as (E & _); [|reflexivity].
        eapply steps_empty_justified; eauto.
      * apply ff_plain in E as (E & _). apply steps_empty in E as (E & _); auto.
    + assert (M : Forall made (w0 :: ws')).
      { clear -W I. unfold indent_first in I. destruct ws as [|w ws]; [discriminate|].
        apply bind_ok in I as (w' & I1 & I). apply Ok_inj in I. injection I as <- <-. constructor.
        - eapply made_indent; [|exact I1]. eapply made_parsed; [exact W|left; reflexivity].
        - apply Forall_forall. intros x IX. eapply made_parsed; [exact W|right; exact IX]. }
      destruct (is_justify (p_align p)) eqn:J.
      { destruct (p_align p) eqn:EA; try discriminate J.
        apply justified_fits in E; [|exact M|discriminate].
        apply (X _ ff_tline out (fun w l => (all_advance (l_words l) <= w)%Qc \/ one_fragment (l_words l)
           \/ (all_advance (prune_last (l_words l)) <= w)%Qc)); [reflexivity|exact E|].
        intros w a [H|[H|H]]; [| |apply line_in_pruned; auto]; unfold line_in; cbn [ff_tline tl_words tl_width]; auto 8. }
      destruct (C35_firstfit_lines_fit _ _ _ _ _ _ _ _ M ltac:(discriminate) E) as (F1 & F2 & F3).
      apply (X _ ff_tline out (fun w l => (((all_advance (l_words l) <= w)%Qc \/ one_fragment (l_words l))
         \/ ((all_advance (prune_last (l_words l)) <= w)%Qc \/ one_fragment (l_words l))) /\ l_width l = all_advance (l_words l))); [reflexivity| |].
      * pose proof (removelast_last _ _ _ F1 F2) as F. rewrite Forall_forall in F, F3 |- *. intros x IX. split; [apply F, IX|apply F3, IX].
      * intros w a [[[H|H]|[H|H]] Y]; try (apply line_in_pruned; [right; exact Y|exact H]);
          unfold line_in; cbn [ff_tline tl_words tl_width]; auto 8.
Qed.

(** Every block of a column is a piece of a paragraph, inside the column and above what is
    left of it; its lines are not too wide. *)
Definition block_in (c : colfill) (b : @xy QcNum * @shaped QcNum) : Prop :=
  let o := c_origin (cf_box c) in
  exists (lead : Qc) a ls, snd b = chunk lead a ls /\ (0 < lead)%Qc /\ px (fst b) = px o
   /\ (py (fst b) <= py o + c_height (cf_box c))%Qc
   /\ (py o + cf_free c <= py (fst b) - nlines (List.length ls) * lead)%Qc
   /\ Forall (line_in a (c_width (cf_box c))) ls.
Definition col_in (c : colfill) : Prop :=
  (0 <= cf_free c)%Qc /\ (cf_free c <= c_height (cf_box c))%Qc /\ Forall (block_in c) (cf_blocks c).
Lemma col_in_add (c : colfill) (lead : Qc) a ls : col_in c -> (0 < lead)%Qc ->
  (nlines (List.length ls) * lead <= cf_free c)%Qc -> Forall (line_in a (c_width (cf_box c))) ls ->
  col_in (cf_add c (chunk lead a ls)).
Proof.
  intros (C1 & C2 & C3) LP N F.
  assert (NP : (0 <= nlines (List.length ls) * lead)%Qc).
  { rewrite <- (Qcmult_0_l lead). apply Qcmult_le_compat_r; [|apply Qclt_le_weak, LP]. unfold nlines.
    unfold Qcle. rewrite !this_Q2Qc. unfold Qle, inject_Z. cbn. lia. }
  unfold col_in. cbn [cf_add cf_box cf_blocks cf_free].
  change (sh_height (@chunk QcNum lead a ls)) with (nlines (List.length ls) * lead)%Qc.
  set (n := (nlines (List.length ls) * lead)%Qc) in *.
  change (@nsub QcNum) with Qcminus.
  split; [qc|]. split; [qc|]. apply Forall_app. split.
  - eapply Forall_impl; [|exact C3]. intros b (ld & a' & ls' & X1 & X2 & X3 & X4 & X5 & X6).
    exists ld, a', ls'. cbn [cf_add cf_box cf_free]. change (sh_height (@chunk QcNum lead a ls)) with n. repeat split; try assumption. clear -X5 NP.
    eapply Qcle_trans; [|exact X5]. qc.
  - constructor; [|constructor]. exists lead, a, ls. cbn [fst snd cf_add cf_box cf_free]. change (sh_height (@chunk QcNum lead a ls)) with n. split; [reflexivity|]. split; [exact LP|].
    unfold cf_cursor, add_y. destruct (c_origin (cf_box c)) as [x y]. cbn [px py]. change (@nadd QcNum) with Qcplus. fold n.
    split; [reflexivity|]. split; [qc|]. split; [qc|]. exact F.
Qed.
Lemma para_in h fuel p (lead : Qc) gs : placed_well p -> (tight p -> TIGHT) -> forall cs st out, (0 < lead)%Qc -> (lead <= h)%Qc -> roomy_from h cs ->
  (forall i, col_in (cs i)) -> @para_loop QcNum ENV fuel p gs cs st lead = Ok out -> Forall col_in out.
Proof.
  intros RP HQ. induction gs as [|g gs IH]; intros cs st out LP LH R CI E; cbn [para_loop] in E.
  - apply Ok_inj in E. subst out. constructor; [apply CI|constructor].
  - apply bind_ok in E as ([[done st'] ex] & E1 & E).
    apply fill_paragraph_adds in E1 as (cmd & ws & ws' & chunks & W & I & SH & _ & D & _).
    destruct (roomy_shape h fuel p lead cs g st cmd ws ws' ex chunks LP LH R W I SH) as (_ & RC).
    assert (DR : Forall (fun c => roomy h c /\ col_in c) done).
    { apply Forall_forall. intros c IC. apply In_nth_error in IC as (i & N). rewrite D in N.
      apply add_chunks_nth in N as (s & N & ->). rewrite nth_error_map in N.
      destruct (nth_error chunks i) as [ls|] eqn:NE; [|discriminate]. injection N as <-. split; [apply RC, NE|].
      apply col_in_add; auto.
      - destruct (RC i ls NE) as (F & _). clear -F. unfold cf_add, chunk in F. cbn [cf_free sh_height] in F.
        change (@nsub QcNum) with Qcminus in F. change (@nmul QcNum) with Qcmult in F. apply Qcle_minus_iff. exact F.
      - exact (shape_in fuel p g st cmd ws ex ws' (cols_of cs) _ lead chunks i ls RP HQ LP (fun j => proj1 (CI j)) W I SH NE). }
    destruct (rev done) as [|col filled] eqn:RV; [discriminate|].
    assert (DE : done = rev filled ++ [col]) by (rewrite <- (rev_involutive done), RV; reflexivity).
    rewrite DE in DR. apply Forall_app in DR as [DR1 DR2]. inversion DR2 as [|? ? (X1 & X2) _]; subst.
    assert (DR1' : Forall col_in (rev filled)) by (eapply Forall_impl; [|exact DR1]; intros a Ha; apply Ha).
    destruct ex.
    + apply bind_ok in E as (out' & E2 & E). apply Ok_inj in E. subst out. apply Forall_app; split; [exact DR1'|].
      refine (IH _ _ _ LP LH _ _ E2).
      * apply roomy_next; auto. rewrite DE, app_length. cbn. lia.
      * intros [|i]; cbn [scons]; [exact X2|apply CI].
    + apply Ok_inj in E. subst out. apply Forall_app; auto.
Qed.
End Inside.
