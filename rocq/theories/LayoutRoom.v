(** * LayoutRoom: paragraphs stay inside their columns (exact rational numbers). *)
From Coq Require Import QArith Qcanon Lqa.
From Verif Require Import Base Num Fonts State Style TextSpec StateProofs Words WordsSpec WordProofs WordOps
  Parse Render RenderSpec Firstfit LineSpec FirstfitProofs WordWidth FirstfitWidth KnuthPlass Optimum
  Common Draw TextBlock Layout LayoutSpec LayoutProofs LayoutText LayoutPages Properties_Style Properties_Text
  Properties_Firstfit Properties_Optimum.
Open Scope nat_scope.

Section Room.
Context {ENV : Env QcNum}.
Local Notation colfill := (@colfill QcNum).
Local Notation cols_of cs := (fun i : nat => (c_width (cf_box (cs i)) : Qc, cf_free (cs i) : Qc)).

Lemma shape_room fuel p ws (cols : nat -> Qc * Qc) ae (lead : Qc) chunks i ls : paragraph_words ws -> (0 < lead)%Qc ->
  (forall i, 0 <= snd (cols i))%Qc -> (ae = false -> lead <= snd (cols 0%nat))%Qc ->
  (forall i, lead <= snd (cols (S i)))%Qc ->
  shape fuel p ws cols ae lead = Ok chunks -> nth_error chunks i = Some ls ->
  (nlines (List.length ls) * lead <= snd (cols i))%Qc.
Proof.
  intros PW LP C0 C1 C2 E N.
  assert (K : List.length ls = 0 \/ (nlines (List.length ls) * lead <= snd (cols i))%Qc
    \/ (List.length ls = 1 /\ (snd (cols i) < lead)%Qc /\ (i = 0 -> ae = false))).
  { unfold shape in E. destruct (p_optimal p) as [[tolerance P]|].
    - apply rmap_inv in E as (out & E & ->). rewrite nth_error_map in N. destruct (nth_error out i) as [l|] eqn:NE; [|discriminate].
      injection N as <-. rewrite map_length. eapply C46_room_partial; eauto.
    - apply rmap_inv in E as (out & E & ->). rewrite nth_error_map in N. destruct (nth_error out i) as [l|] eqn:NE; [|discriminate].
      injection N as <-. rewrite map_length. destruct (is_justify (p_align p)).
      + apply ff_justified in E as (cs0 & E & F).
        assert (X : exists l0, nth_error cs0 i = Some l0 /\ List.length l0 = List.length l).
        { clear -F NE. revert i NE. induction F as [|x y xs ys H F IH]; intros [|i] NE; try discriminate.
          - injection NE as ->. exists x. split; [reflexivity|]. clear -H. induction H; cbn; auto.
          - apply IH, NE. }
        destruct X as (l0 & NE0 & <-). destruct (C36_firstfit_room _ _ _ _ _ _ _ _ _ _ LP E NE0) as [X|[X|(X1 & X2 & X3 & X4)]]; auto.
      + destruct (C36_firstfit_room _ _ _ _ _ _ _ _ _ _ LP E NE) as [X|[X|(X1 & X2 & X3 & X4)]]; auto. }
  destruct K as [K|[K|(K1 & K2 & K3)]]; [|exact K|].
  - rewrite K. unfold nlines. change (Q2Qc (inject_Z (Z.of_nat 0))) with 0%Qc. rewrite Qcmult_0_l. apply C0.
  - exfalso. destruct i as [|i].
    + apply (Qclt_not_le _ _ K2). apply C1, K3. reflexivity.
    + apply (Qclt_not_le _ _ K2). apply C2.
Qed.
(** What is left of a column is not negative, and a column without blocks has room
    for at least [h]. *)
Definition roomy (h : Qc) (c : colfill) : Prop :=
  (0 <= cf_free c)%Qc /\ (cf_blocks c = [] -> h <= cf_free c)%Qc.
Definition roomy_from (h : Qc) (cs : nat -> colfill) : Prop :=
  (forall i, roomy h (cs i)) /\ (forall i, cf_blocks (cs (S i)) = []).
Lemma add_room h c (lead : Qc) a ls : (nlines (List.length ls) * lead <= cf_free c)%Qc ->
  roomy h (cf_add c (chunk lead a ls)).
Proof.
  intros H. split.
  - unfold cf_add, chunk. cbn [cf_free sh_height].
    apply Qcle_minus_iff in H. exact H.
  - unfold cf_add. cbn [cf_blocks]. intros E. apply app_eq_nil in E as [_ E]. discriminate.
Qed.
Lemma allow_empty_iff (c : colfill) : match cf_blocks c with [] => false | _ => true end = false -> cf_blocks c = [].
Proof. destruct (cf_blocks c); [reflexivity|discriminate]. Qed.
Lemma roomy_shape h fuel p (lead : Qc) cs g st cmd ws ws' ex chunks : (0 < lead)%Qc -> (lead <= h)%Qc -> roomy_from h cs ->
  into_words g st = Ok (cmd, ws, ex) -> indent_first ws (p_indent p) = Ok ws' ->
  shape fuel p ws' (cols_of cs) (match cf_blocks (cs 0) with [] => false | _ => true end) lead = Ok chunks ->
  heights_ok p (cols_of cs) lead
  /\ (forall i ls, nth_error chunks i = Some ls -> roomy h (cf_add (cs i) (chunk lead (p_align p) ls))).
Proof.
  intros LP LH [R1 R2] W I S. split.
  - right. apply (roomy_cols (cols_of cs) lead LP). intros i. apply R1.
  - intros i ls N. apply add_room.
    refine (shape_room fuel p ws' (cols_of cs) _ lead chunks i ls _ LP _ _ _ S N).
    + eapply pw_indented; [eapply pw_parsed; exact W|exact I].
    + intros j. apply R1.
    + intros E. cbn [snd]. apply allow_empty_iff in E. eapply Qcle_trans; [exact LH|]. apply R1, E.
    + intros j. cbn [snd]. eapply Qcle_trans; [exact LH|]. apply R1, R2.
Qed.
Lemma roomy_next h cs c n : roomy_from h cs -> roomy h c -> 0 < n -> roomy_from h (scons c (sdrop n cs)).
Proof.
  intros [R1 R2] C L. split.
  - intros [|i]; cbn [scons]; [exact C|apply R1].
  - intros i. cbn [scons]. unfold sdrop. destruct n; [lia|]. apply R2.
Qed.
Lemma last_nth_error {A} (l : list A) d : l <> [] -> nth_error l (List.length l - 1) = Some (List.last l d).
Proof.
  induction l as [|x [|y l] IH]; intros H; [congruence|reflexivity|].
  change (List.last (x :: y :: l) d) with (List.last (y :: l) d). rewrite <- IH by discriminate. cbn. rewrite Nat.sub_0_r. reflexivity.
Qed.
Lemma run_roomy h fuel p (lead : Qc) gs cs st cks : (0 < lead)%Qc -> (lead <= h)%Qc -> roomy_from h cs ->
  @para_run QcNum ENV fuel p lead gs cs st cks -> run_heights fuel p lead gs cs st cks.
Proof.
  intros LP LH R H. induction H as [|g r cs st cmd ws ws' ex chunks rest W I S CN RN RR IH]; [constructor|].
  destruct (roomy_shape h fuel p lead cs g st cmd ws ws' ex chunks LP LH R W I S) as (HO & RC).
  eapply rh_group; eauto. intros ->. eexists. apply IH; [reflexivity|].
  apply roomy_next; [exact R| |destruct chunks; [congruence|cbn; lia]].
  apply RC. apply last_nth_error. exact CN.
Qed.
Lemma add_chunks_nth (chunks : list shaped) : forall cs i c, nth_error (add_chunks cs chunks) i = Some c ->
  exists s, nth_error chunks i = Some s /\ c = cf_add (cs i) s.
Proof.
  induction chunks as [|s chunks IH]; intros cs [|i] c N; try discriminate.
  - injection N as <-. exists s. auto.
  - cbn in N. apply IH in N as (s' & N & ->). exists s'. split; [exact N|reflexivity].
Qed.
Lemma para_roomy h fuel p (lead : Qc) gs : forall cs st out, (0 < lead)%Qc -> (lead <= h)%Qc -> roomy_from h cs ->
  @para_loop QcNum ENV fuel p gs cs st lead = Ok out -> Forall (roomy h) out.
Proof.
  induction gs as [|g gs IH]; intros cs st out LP LH R E; cbn [para_loop] in E.
  - apply Ok_inj in E. subst out. constructor; [apply R|constructor].
  - apply bind_ok in E as ([[done st'] ex] & E1 & E).
    apply fill_paragraph_adds in E1 as (cmd & ws & ws' & chunks & W & I & S & _ & D & _).
    destruct (roomy_shape h fuel p lead cs g st cmd ws ws' ex chunks LP LH R W I S) as (_ & RC).
    assert (DR : Forall (roomy h) done).
    { apply Forall_forall. intros c IC. apply In_nth_error in IC as (i & N). rewrite D in N.
      apply add_chunks_nth in N as (s & N & ->). rewrite nth_error_map in N.
      destruct (nth_error chunks i) as [ls|] eqn:NE; [|discriminate]. injection N as <-. apply RC, NE. }
    destruct (rev done) as [|col filled] eqn:RV; [discriminate|].
    assert (DE : done = rev filled ++ [col]) by (rewrite <- (rev_involutive done), RV; reflexivity).
    rewrite DE in DR. apply Forall_app in DR as [DR1 DR2]. inversion DR2; subst. 
    destruct ex.
    + apply bind_ok in E as (out' & E2 & E). apply Ok_inj in E. subst out. apply Forall_app; split; [exact DR1|].
      refine (IH _ _ _ LP LH _ E2). apply roomy_next; auto. rewrite DE, app_length. cbn. lia.
    + apply Ok_inj in E. subst out. apply Forall_app; auto.
Qed.
(** the text of any paragraph *)
Lemma para_any h fuel base p cs out : all_split -> para_begins base p ->
  (0 < para_lead base p)%Qc -> (para_lead base p <= h)%Qc -> roomy_from h cs ->
  para_columns fuel p base cs = Ok out ->
  exists added rows, added <> [] /\ adds cs added out
    /\ Forall2 shows_text rows (map (map fst) (para_lines base p))
    /\ concat rows = map (map fst) (para_shape_lines (concat added)) /\ Forall (roomy h) out.
Proof.
  intros HY B LP LH RM E. unfold para_columns in E. destruct (para_groups base p QcNum_exact B) as (T & S).
  change (max_lead _ _) with (para_lead base p) in E.
  set (sty := full_or base (p_style p)) in *. set (gs := splitlines _) in *.
  pose proof (para_roomy h fuel p _ gs cs _ out LP LH RM E) as RO.
  apply para_loop_run in E as (added & cks & NE & A & R & CO).
  apply (run_roomy h) in R; auto. apply run_text in R; auto.
  exists added, (map (fun chunks => map line_text (concat chunks)) cks).
  split; [exact NE|]. split; [exact A|]. split; [|split].
  - rewrite <- S, styled_groups_text. clear -R. induction R; constructor; auto.
  - unfold para_shape_lines. rewrite CO, shape_lines_chunks, <- concat_map_map, map_map.
    rewrite <- concat_map_map, map_map. f_equal. apply map_ext. intros c. rewrite map_map. reflexivity.
  - exact RO.
Qed.
End Room.
