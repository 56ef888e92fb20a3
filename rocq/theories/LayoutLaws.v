(** * LayoutLaws: paragraphs stay inside their columns, in any lawful arithmetic. *)
From Verif Require Import Base Num NumLaws Fonts State Style TextSpec StateProofs Words WordsSpec WordProofs WordOps
  Parse Render RenderSpec Firstfit LineSpec FirstfitProofs KnuthPlass Optimum OptimumProofs
  Common Draw TextBlock Layout LayoutSpec LayoutProofs LayoutText LayoutPages Properties_Style Properties_Text
  Properties_Firstfit Properties_Optimum LayoutRoom.
Open Scope nat_scope.

(** ** The text of a paragraph, without comparing numbers *)
Section Text.
Context {NUM : Num}.
Lemma cut_text t : forall s s' : state, map (map fst) (cut t s) = map (map fst) (cut t s').
Proof.
  induction t as [|c t IH]; intros s s'; [reflexivity|]. cbn [cut]. specialize (IH s s').
  destruct (c =? 10)%N; [cbn [map]; f_equal; exact IH|].
  destruct ((c =? 13)%N && _); [exact IH|].
  destruct (cut t s) as [|l r], (cut t s') as [|l' r']; cbn [map] in *; try discriminate; [reflexivity|].
  injection IH as IH1 IH2. cbn [fst]. rewrite IH1, IH2. reflexivity.
Qed.
Lemma glue_text (a a' b b' : list (list (@schar NUM))) : map (map fst) a = map (map fst) a' -> map (map fst) b = map (map fst) b' ->
  map (map fst) (glue a b) = map (map fst) (glue a' b').
Proof.
  revert a'. induction a as [|x a IH]; intros [|y a'] A B; try discriminate; [exact B|]. cbn [map] in A. injection A as A1 A2.
  destruct a as [|x2 a], a' as [|y2 a']; try discriminate.
  - destruct b as [|u b], b' as [|v b']; cbn [glue map] in *; try discriminate; [congruence|].
    injection B as B1 B2. f_equal; [|exact B2]. rewrite 2 map_app. f_equal; assumption.
  - change (map (map fst) (x :: glue (x2 :: a) b) = map (map fst) (y :: glue (y2 :: a') b')). cbn [map]. f_equal; [exact A1|].
    apply (IH (y2 :: a') A2 B).
Qed.
Lemma lines_text ps : forall (s : state) (l : list (str * full)), map snd ps = map fst l ->
  map (map fst) (spec_lines ps s) = map (map fst) (lines_of l).
Proof.
  induction ps as [|[c t] ps IH]; intros s [|[t' f] l] E; try discriminate; [reflexivity|]. cbn in E. injection E as -> E.
  cbn [spec_lines lines_of]. apply glue_text; [apply cut_text|apply IH, E].
Qed.
Lemma flatten_item_text i : forall (base : full) todo, map snd (fst (flatten_item base i todo)) = map fst (span_strings base i).
Proof.
  induction i as [t|st c IH] using item_ind'; intros base todo; [reflexivity|]. cbn [flatten_item span_strings].
  set (nb := full_or base st).
  set (go := fix go (l : list item) (todo : list command) : list raw * list command :=
    match l with [] => ([], todo) | i :: r => let '(p1, t1) := flatten_item nb i todo in let '(p2, t2) := go r t1 in (p1 ++ p2, t2) end).
  assert (G : forall todo, map snd (fst (go c todo)) = map fst (flat_map (span_strings nb) c)).
  { clear todo. induction IH as [|i c H F IHc]; intros todo; [reflexivity|]. cbn [go flat_map]. fold go.
    specialize (H nb todo). destruct (flatten_item nb i todo) as [p1 t1]. specialize (IHc t1). destruct (go c t1) as [p2 t2].
    cbn [fst] in *. rewrite 2 map_app. f_equal; assumption. }
  specialize (G (todo ++ style_diff st base)). destruct (go c _) as [p t]. exact G.
Qed.
Lemma flatten_text (base : full) st c : map snd (flatten base st c) = map fst (span_strings base (ISpan st c)).
Proof. unfold flatten, passages_of, flatten_raw. rewrite map_map. cbn [snd]. apply flatten_item_text. Qed.
Lemma para_groups_text base p : para_begins base p ->
  let sty := full_or base (p_style p) in
  let gs := splitlines (flatten sty (p_style p) (p_content p)) in
  Forall text_group gs /\ map text_of gs = map (map fst) (para_lines base p).
Proof.
  intros B sty gs. pose proof (flatten_text sty (p_style p) (p_content p)) as T. unfold sty in T at 2. rewrite para_strings in T.
  unfold para_begins in B. set (ps := flatten sty (p_style p) (p_content p)) in *.
  assert (F : Forall (fun q => begins_text (snd q)) ps).
  { apply (Forall_map snd begins_text). rewrite T. apply (Forall_map fst begins_text), B. }
  split; [apply splitlines_text_groups, F|]. rewrite <- (styled_groups_text gs (as_state sty)).
  unfold para_lines. destruct (span_strings base (ISpan (p_style p) (p_content p))) as [|x l] eqn:E.
  - destruct ps as [|[? ?] ?] eqn:EP; [|discriminate T]. reflexivity.
  - assert (PN : ps <> []) by (destruct ps; discriminate). unfold gs. fold ps.
    rewrite (splitlines_spec ps (as_state sty) PN). apply lines_text, T.
Qed.
End Text.

Section Laws.
Context {NUM : Num} {ENV : Env NUM} (fin : num -> Prop) (LAW : lawful fin).
Local Notation colfill := (@colfill NUM).
Local Notation cols_of cs := (fun i : nat => (c_width (cf_box (cs i)), cf_free (cs i))).

(** a line height: positive, and a column of height [H] holds less than 2^50 lines *)
Definition line_height (H lead : num) : Prop := fin lead /\ lt n0 lead /\ lt H (nmul (nZ most) lead).
Definition height (H h : num) : Prop := fin h /\ le n0 h /\ le h H.
(** the room for lines *)
Lemma law_count H h lead ae (n : nat) : fin H -> line_height H lead -> height H h ->
  (Z.of_nat n <= Z.max 0 (max_line_count h lead ae))%Z -> (ae = false -> le lead h) ->
  fin (nmul (nZ (Z.of_nat n)) lead) /\ le n0 (nmul (nZ (Z.of_nat n)) lead) /\ le (nmul (nZ (Z.of_nat n)) lead) h.
Proof.
  intros FH (L1 & L2 & L3) (H1 & H2 & H3) N A.
  destruct (law_floor _ LAW h lead H1 L1 H2 L2) as (F0 & F1 & F); [apply (law_below _ LAW h H); auto|]. apply F.
  unfold max_line_count in N. split; [lia|]. destruct (Z.eqb_spec (nfloordiv h lead) 0) as [E|E]; [|lia].
  destruct ae; [lia|]. specialize (F1 (A eq_refl)). lia.
Qed.
Lemma law_roomy H (cols : nat -> num * num) lead : fin H -> line_height H lead -> (forall i, height H (snd (cols i))) ->
  forall i, (0 <= nfloordiv (snd (cols i)) lead)%Z.
Proof.
  intros FH (L1 & L2 & L3) C i. destruct (C i) as (C1 & C2 & C3).
  apply (law_floor _ LAW _ lead C1 L1 C2 L2). apply (law_below _ LAW _ H); auto.
Qed.
(** how many lines each column gets, in any arithmetic *)
Lemma ff_counts fuel ws cols ae lead av cs i ls : ff_shape fuel ws cols ae lead av false = Ok cs -> nth_error cs i = Some ls ->
  (Z.of_nat (List.length ls) <= Z.max 0 (max_line_count (snd (cols i)) lead (ae && (i =? 0)%nat)))%Z.
Proof.
  intros E N. apply ff_plain in E as (_ & E & _).
  revert ae cols i E N. induction cs as [|c cs IH]; intros ae cols i; [destruct i; discriminate|].
  cbn [counts_ok]. intros [C1 C2] N. destruct i as [|i]; cbn in N.
  - injection N as ->. rewrite andb_true_r. exact C1.
  - rewrite andb_false_r. apply (IH _ _ _ C2 N).
Qed.
Lemma opt_counts fuel ws cols ae lead av ragged tolerance P out i ls : (forall i, (0 <= nfloordiv (snd (cols i)) lead)%Z) ->
  opt_shape fuel ws cols ae lead av ragged tolerance P = Ok out -> nth_error out i = Some ls ->
  ls = [] \/ (Z.of_nat (List.length ls) <= max_line_count (snd (cols i)) lead (ae && (i =? 0)%nat))%Z.
Proof.
  intros RM E N. apply opt_shape_spec in E as (frags & boxes & IB & H); auto.
  assert (RN : forall (A : Type) (d i : nat) (x : list A) r, nth_error (repeat [] d ++ r) i = Some x ->
      x = [] \/ d <= i /\ nth_error r (i - d) = Some x).
  { clear. intros A d. induction d as [|d IH]; intros i x r; cbn; [rewrite Nat.sub_0_r; right; split; [lia|auto]|].
    destruct i as [|i]; cbn; [intros [= <-]; auto|]. intros H. apply IH in H as [H|(H1 & H2)]; auto. right. split; [lia|auto]. }
  destruct H as [(-> & d & -> & _ & RD)|(d & q & groups & D & -> & Q & L)].
  - apply RN in N as [N|(N1 & N2)]; auto. right. destruct (i - d) as [|k] eqn:ID; cbn in N2; [|destruct k; discriminate].
    inversion N2; subst. cbn [List.length]. replace i with d by lia. unfold room in RD. lia.
  - apply RN in N as [N|(N1 & N2)]; auto. right. destruct (laid_groups _ _ _ _ _ _ _ _ d _ _ _ _ Q L N2) as (_ & G).
    destruct Q as (_ & _ & QR). specialize (QR (i - d)). replace (d + (i - d)) with i in QR by lia. unfold room in QR. lia.
Qed.
Lemma law_shape H fuel p ws cols ae lead chunks i ls : fin H -> line_height H lead -> (forall i, height H (snd (cols i))) ->
  (ae = false -> le lead (snd (cols 0))) -> (forall i, le lead (snd (cols (S i)))) ->
  shape fuel p ws cols ae lead = Ok chunks -> nth_error chunks i = Some ls ->
  let t := nmul (nZ (Z.of_nat (List.length ls))) lead in fin t /\ le n0 t /\ le t (snd (cols i)).
Proof.
  intros FH L C C0 C1 E N. assert (RM := law_roomy H cols lead FH L C).
  assert (K : (Z.of_nat (List.length ls) <= Z.max 0 (max_line_count (snd (cols i)) lead (ae && (i =? 0)%nat)))%Z).
  { unfold shape in E. destruct (p_optimal p) as [[tolerance P]|].
    - apply rmap_inv in E as (out & E & ->). rewrite nth_error_map in N. destruct (nth_error out i) as [l|] eqn:NE; [|discriminate].
      injection N as <-. rewrite map_length. eapply opt_counts in E as [-> |E]; eauto; cbn [List.length]; lia.
    - apply rmap_inv in E as (out & E & ->). rewrite nth_error_map in N. destruct (nth_error out i) as [l|] eqn:NE; [|discriminate].
      injection N as <-. rewrite map_length. destruct (is_justify (p_align p)); [|eapply ff_counts; eauto].
      apply ff_justified in E as (cs0 & E & F).
      assert (X : exists l0, nth_error cs0 i = Some l0 /\ List.length l0 = List.length l).
      { clear -F NE. revert i NE. induction F as [|x y xs ys H F IH]; intros [|i] NE; try discriminate.
        - injection NE as ->. exists x. split; [reflexivity|]. clear -H. induction H; cbn; auto.
        - apply IH, NE. }
      destruct X as (l0 & NE0 & <-). eapply ff_counts; eauto. }
  eapply law_count; eauto. intros A. destruct i as [|i]; [apply C0; rewrite andb_true_r in A; exact A|apply C1].
Qed.
(** What is left of a column is between 0 and [H]; a column without blocks has room
    for at least [h]. *)
Definition ample (h H : num) (c : colfill) : Prop := height H (cf_free c) /\ (cf_blocks c = [] -> le h (cf_free c)).
Definition ample_from (h H : num) (cs : nat -> colfill) : Prop :=
  (forall i, ample h H (cs i)) /\ (forall i, cf_blocks (cs (S i)) = []).
Definition fit_lines (h H lead : num) : Prop := line_height H lead /\ le lead h.
Lemma law_add h H c lead a ls : fin H -> ample h H c -> (let t := nmul (nZ (Z.of_nat (List.length ls))) lead in
  fin t /\ le n0 t /\ le t (cf_free c)) -> ample h H (cf_add c (chunk lead a ls)).
Proof.
  intros FH ((F1 & F2 & F3) & _) (T1 & T2 & T3). split.
  - unfold cf_add, chunk. cbn [cf_free sh_height]. destruct (law_sub _ LAW _ _ F1 T1 T2 T3) as (S1 & S2 & S3).
    split; [exact S1|]. split; [exact S2|]. eapply (law_trans _ LAW); [exact S1|exact F1|exact FH|exact S3|exact F3].
  - unfold cf_add. cbn [cf_blocks]. intros E. apply app_eq_nil in E as [_ E]. discriminate.
Qed.
Lemma ample_shape h H fuel p lead cs ws chunks : fin h -> fin H -> fit_lines h H lead -> ample_from h H cs ->
  shape fuel p ws (cols_of cs) (match cf_blocks (cs 0) with [] => false | _ => true end) lead = Ok chunks ->
  heights_ok p (cols_of cs) lead
  /\ (forall i ls, nth_error chunks i = Some ls -> ample h H (cf_add (cs i) (chunk lead (p_align p) ls))).
Proof.
  intros Fh FH (L & LH) [R1 R2] S. split.
  - right. apply (law_roomy H (cols_of cs) lead FH L). intros i. apply R1.
  - intros i ls N. apply law_add; [exact FH|apply R1|].
    refine (law_shape H fuel p ws (cols_of cs) _ lead chunks i ls FH L _ _ _ S N).
    + intros j. apply R1.
    + intros E. cbn [snd]. assert (B : cf_blocks (cs 0) = []) by (destruct (cf_blocks (cs 0)); [reflexivity|discriminate]).
      eapply (law_trans _ LAW); [apply L|exact Fh|apply R1|exact LH|apply R1, B].
    + intros j. cbn [snd]. eapply (law_trans _ LAW); [apply L|exact Fh|apply R1|exact LH|apply R1, R2].
Qed.
Lemma ample_next h H cs c n : ample_from h H cs -> ample h H c -> 0 < n -> ample_from h H (scons c (sdrop n cs)).
Proof.
  intros [R1 R2] C L. split.
  - intros [|i]; cbn [scons]; [exact C|apply R1].
  - intros i. cbn [scons]. unfold sdrop. destruct n; [lia|]. apply R2.
Qed.
Lemma run_ample h H fuel p lead gs cs st cks : fin h -> fin H -> fit_lines h H lead -> ample_from h H cs ->
  para_run fuel p lead gs cs st cks -> run_heights fuel p lead gs cs st cks.
Proof.
  intros Fh FH L R X. induction X as [|g r cs st cmd ws ws' ex chunks rest W I S CN RN RR IH]; [constructor|].
  destruct (ample_shape h H fuel p lead cs ws' chunks Fh FH L R S) as (HO & RC).
  eapply rh_group; eauto. intros ->. eexists. apply IH; [reflexivity|].
  apply ample_next; [exact R| |destruct chunks; [congruence|cbn; lia]].
  apply RC. apply last_nth_error. exact CN.
Qed.
Lemma law_chunks_nth (chunks : list shaped) : forall cs i c, nth_error (add_chunks cs chunks) i = Some c ->
  exists s, nth_error chunks i = Some s /\ c = cf_add (cs i) s.
Proof.
  induction chunks as [|s chunks IH]; intros cs [|i] c N; try discriminate.
  - injection N as <-. exists s. auto.
  - cbn in N. apply IH in N as (s' & N & ->). exists s'. split; [exact N|reflexivity].
Qed.
Lemma para_ample h H fuel p lead gs : forall cs st out, fin h -> fin H -> fit_lines h H lead -> ample_from h H cs ->
  para_loop fuel p gs cs st lead = Ok out -> Forall (ample h H) out.
Proof.
  induction gs as [|g gs IH]; intros cs st out Fh FH L R E; cbn [para_loop] in E.
  - apply Ok_inj in E. subst out. constructor; [apply R|constructor].
  - apply bind_ok in E as ([[done st'] ex] & E1 & E).
    apply fill_paragraph_adds in E1 as (cmd & ws & ws' & chunks & W & I & S & _ & D & _).
    destruct (ample_shape h H fuel p lead cs ws' chunks Fh FH L R S) as (_ & RC).
    assert (DR : Forall (ample h H) done).
    { apply Forall_forall. intros c IC. apply In_nth_error in IC as (i & N). rewrite D in N.
      apply law_chunks_nth in N as (s & N & ->). rewrite nth_error_map in N.
      destruct (nth_error chunks i) as [ls|] eqn:NE; [|discriminate]. injection N as <-. apply RC, NE. }
    destruct (rev done) as [|col filled] eqn:RV; [discriminate|].
    assert (DE : done = rev filled ++ [col]) by (rewrite <- (rev_involutive done), RV; reflexivity).
    rewrite DE in DR. apply Forall_app in DR as [DR1 DR2]. inversion DR2; subst. 
    destruct ex.
    + apply bind_ok in E as (out' & E2 & E). apply Ok_inj in E. subst out. apply Forall_app; split; [exact DR1|].
      refine (IH _ _ _ Fh FH L _ E2). apply ample_next; auto. rewrite DE, app_length. cbn. lia.
    + apply Ok_inj in E. subst out. apply Forall_app; auto.
Qed.
Lemma para_law h H fuel base p cs out : fin h -> fin H -> all_split -> para_begins base p ->
  fit_lines h H (para_lead base p) -> ample_from h H cs ->
  para_columns fuel p base cs = Ok out ->
  exists added rows, added <> [] /\ adds cs added out
    /\ Forall2 shows_text rows (map (map fst) (para_lines base p))
    /\ concat rows = map (map fst) (para_shape_lines (concat added)) /\ Forall (ample h H) out.
Proof.
  intros Fh FH HY B L RM E. unfold para_columns in E. destruct (para_groups_text base p B) as (T & S).
  change (max_lead _ _) with (para_lead base p) in E.
  set (sty := full_or base (p_style p)) in *. set (gs := splitlines _) in *.
  pose proof (para_ample h H fuel p _ gs cs _ out Fh FH L RM E) as RO.
  apply para_loop_run in E as (added & cks & NE & A & R & CO).
  apply (run_ample h H) in R; auto. apply run_text in R; auto.
  exists added, (map (fun chunks => map line_text (concat chunks)) cks).
  split; [exact NE|]. split; [exact A|]. split; [|split].
  - rewrite <- S. clear -R. induction R; constructor; auto.
  - unfold para_shape_lines. rewrite CO, shape_lines_chunks, <- concat_map_map, map_map.
    rewrite <- concat_map_map, map_map. f_equal. apply map_ext. intros c. rewrite map_map. reflexivity.
  - exact RO.
Qed.
End Laws.
