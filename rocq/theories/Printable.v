(** * Printable: what is rendered for left-aligned paragraphs can be printed. *)
From Coq Require Import QArith Qcanon Qabs Lqa.
From Verif Require Import Base Gfmt GfmtProofs Num Fonts State Style TextSpec StateProofs Words WordsSpec WordProofs WordOps
  Parse Render RenderSpec RenderProofs Firstfit FirstfitProofs FirstfitWidth KnuthPlass Optimum Common Draw Layout LayoutSpec LayoutProofs LayoutStyle LayoutText
  LayoutPages LayoutRoom LayoutInside Properties_Layout ReaderText ReaderParas ContentSpec ContentOps NumbersUsed.
Local Open Scope list_scope.
Open Scope nat_scope.

(** ** Styles *)
Section Styles.
Context {NUM : Num} {ENV : Env NUM}.
Variable G : num -> Prop.
Variable UC : char -> Prop.
Definition good_style (s : style) : Prop :=
  (forall z, s_size s = Some z -> G z) /\ (forall c, s_color s = Some c -> rgb_in G c).
Definition good_full (f : full) : Prop := G (fs_size f) /\ rgb_in G (fs_color f).
Fixpoint good_item (i : item) : Prop :=
  match i with
  | IStr s => Forall UC s
  | ISpan st c => good_style st /\ (fix go (l : list item) : Prop := match l with [] => True | i :: r => good_item i /\ go r end) c
  end.
Definition good_items (l : list item) : Prop := Forall good_item l.
Lemma good_span st c : good_item (ISpan st c) <-> good_style st /\ good_items c.
Proof.
  cbn. split; intros [A B]; (split; [exact A|]); clear A.
  - induction c as [|i c IH]; [constructor|]. destruct B. constructor; [assumption|apply IH; assumption].
  - induction B as [|i c Hi B IH]; [exact I|]. split; assumption.
Qed.
Lemma good_or f s : good_full f -> good_style s -> good_full (full_or f s).
Proof.
  intros [A B] [C D]. split; cbn; unfold fallback.
  - destruct (s_size s) eqn:E; [apply C, eq_refl|exact A].
  - destruct (s_color s) eqn:E; [apply D, eq_refl|exact B].
Qed.
Lemma as_state_good f : good_full f -> st_in G (as_state f).
Proof. intros H. exact H. Qed.
Lemma style_diff_good s base : good_full base -> good_style s -> cmds_in G (style_diff s base).
Proof.
  intros F S. assert (F' := good_or base s F S). destruct S as [S1 S2]. unfold style_diff. apply cmds_app. split.
  { match goal with |- context [if ?c then _ else _] => destruct c end; [|constructor]. constructor; [exact (proj1 F')|constructor]. }
  apply cmds_app. split.
  { destruct (s_color s) as [c|]; [|constructor]. destruct (rgb_eqb _ _); [constructor|]. constructor; [apply S2, eq_refl|constructor]. }
  apply cmds_app. split; repeat match goal with |- context [match ?c with _ => _ end] => destruct c end; repeat constructor.
Qed.
Lemma full_diff_good f base : good_full f -> cmds_in G (full_diff f base).
Proof.
  intros [A B]. unfold full_diff. apply cmds_app. split.
  { match goal with |- context [if ?c then _ else _] => destruct c end; [|constructor]. constructor; [exact A|constructor]. }
  apply cmds_app. split.
  { destruct (rgb_eqb _ _); [constructor|]. constructor; [exact B|constructor]. }
  apply cmds_app. split; repeat match goal with |- context [if ?c then _ else _] => destruct c end; repeat constructor.
Qed.
Lemma flatten_good i : forall base todo, good_full base -> good_item i -> cmds_in G todo ->
  cmds_in G (snd (flatten_item base i todo))
  /\ Forall (fun p : raw => cmds_in G (fst p) /\ Forall UC (snd p)) (fst (flatten_item base i todo)).
Proof.
  induction i as [t|st c IH] using item_ind'; intros base todo B I T.
  - cbn. split; [constructor|]. constructor; [split; assumption|constructor].
  - rewrite flatten_item_span. apply good_span in I as [S C].
    assert (X : forall base todo, good_full base -> cmds_in G todo -> cmds_in G (snd (flatten_items base c todo))
       /\ Forall (fun p : raw => cmds_in G (fst p) /\ Forall UC (snd p)) (fst (flatten_items base c todo))).
    { clear base todo B T. induction IH as [|i c Hi _ IHc]; intros base todo B T; cbn [flatten_items]; [split; [exact T|constructor]|].
      inversion C as [|? ? C1 C2]; subst. destruct (Hi base todo B C1 T) as [A1 B1]. destruct (flatten_item base i todo) as [p1 t1]. cbn [fst snd] in *.
      destruct (IHc C2 base t1 B A1) as [A2 B2]. destruct (flatten_items base c t1) as [p2 t2]. cbn [fst snd] in *.
      split; [exact A2|]. apply Forall_app. auto. }
    destruct (X (full_or base st) (todo ++ style_diff st base)) as [P Q'].
    { apply good_or; assumption. }
    { apply cmds_app. split; [exact T|apply style_diff_good; assumption]. }
    destruct (flatten_items _ _ _) as [ps t]. cbn [fst snd] in *. split; [|exact Q'].
    apply cmds_app. split; [exact P|apply full_diff_good, B].
Qed.
Lemma flatten_psg base st content : good_full base -> good_item (ISpan st content) -> psg_in G UC (flatten base st content).
Proof.
  intros B I. unfold flatten, passages_of, flatten_raw. destruct (flatten_good (ISpan st content) base [] B I (Forall_nil _)) as [_ H].
  unfold psg_in. apply Forall_forall. intros p IP. apply in_map_iff in IP as (q & <- & IQ). rewrite Forall_forall in H. destruct (H q IQ).
  split; [apply squash_in; assumption|assumption].
Qed.
Lemma para_columns_good fuel p base cs out : G (nneg n0) -> (forall f a b, G (nneg (charkern f a b))) -> UC 45%N -> all_split ->
  good_full base -> good_item (ISpan (p_style p) (p_content p)) -> G (para_lead base p) -> p_align p = ALeft -> ntruthy (p_indent p) = false ->
  cols_in G G UC cs -> para_columns fuel p base cs = Ok out -> Forall (col_in G G UC) out.
Proof.
  intros G0 GK U45 US B I LD LA NI C E. unfold para_columns in E. assert (B' : good_full (full_or base (p_style p))) by (apply good_or; [exact B|apply good_span in I; apply I]).
  eapply para_loop_in; [exact G0|exact GK|exact U45|exact US|exact LA|exact NI|exact LD| |exact C| |exact E].
  - apply splitlines_in. apply flatten_psg; assumption.
  - apply as_state_good, B'.
Qed.
End Styles.

(** ** Operators *)
Section Ops.
Context {NUM : Num} {ENV : Env NUM}.
Definition unichar (c : char) : Prop := (c < 1114112)%N.
Lemma op_in_plain o : op_in plain plain unichar o -> op_plain o.
Proof.
  unfold op_plain. destruct o; cbn [op_in op_nums]; try contradiction; intros H;
    (split; [|try exact I]); try (repeat constructor; (exact H || apply H)).
  induction H as [|i l Hi _ IH]; [constructor|]. cbn [flat_map]. apply Forall_app. split; [|exact IH].
  destruct i as [s|t st]; cbn [item_in item_nums] in *.
  - destruct Hi as (_ & K & _). unfold kern_in in K. apply Forall_map. exact K.
  - destruct Hi as (_ & T). destruct (ntruthy _); [|constructor]. constructor; [exact T|constructor].
Qed.
Lemma ops_in_unicode v ops : ops_in plain plain unichar ops -> unicode (fst (view v ops)).
Proof.
  intros H. assert (X : Forall (fun i => Forall unichar (item_text i)) (items_of ops)).
  { induction H as [|o ops Ho _ IH]; [constructor|]. unfold items_of. cbn [flat_map]. apply Forall_app. split; [|exact IH].
    destruct o; try constructor. cbn [op_in] in Ho. eapply Forall_impl; [|exact Ho]. intros [s|t st] Hi; cbn in *; [apply Hi|].
    constructor; [reflexivity|constructor]. }
  rewrite <- (view_items ops v) in X. unfold unicode. induction (fst (view v ops)) as [|s l IH]; [constructor|].
  cbn [flat_map] in X. apply Forall_app in X as [X1 X2]. constructor; auto.
Qed.
End Ops.

(** ** Pages, in exact arithmetic *)
(** Numbers printed without exponent *)
Definition ordinary (x : Qc) : Prop :=
  x = 0%Qc \/ (Q2Qc (1 # 10000) <= x /\ x < Q2Qc (999999 + (1 # 2)))%Qc \/ (Q2Qc (1 # 10000) <= - x /\ - x < Q2Qc (999999 + (1 # 2)))%Qc.
Lemma ordinary_plain (x : Qc) : ordinary x -> @plain QcNum x.
Proof.
  intros H. exists (this x). split; [reflexivity|]. destruct H as [-> |[[A B]|[A B]]]; [reflexivity| |]; apply g_plain_range;
    unfold Qcle, Qclt in *; rewrite ?this_opp, ?this_Q2Qc in A, B.
  - rewrite Qabs_pos; [exact A|]. lra.
  - rewrite Qabs_pos; [exact B|]. lra.
  - rewrite Qabs_neg; [exact A|]. lra.
  - rewrite Qabs_neg; [exact B|]. lra.
Qed.
Definition ordinary_columns (template : Z -> page (@drawing QcNum)) : Prop :=
  forall n, Forall (fun c => ordinary (px (c_origin c)) /\ (Q2Qc (1 # 10000) <= py (c_origin c))%Qc
                             /\ (py (c_origin c) + c_height c < Q2Qc (999999 + (1 # 2)))%Qc) (pg_columns (template n)).
(** left-aligned, not indented; sizes, colours and line spacing are ordinary numbers, and the text is Unicode *)
Definition ordinary_para {ENV : Env QcNum} (base : @full QcNum) (p : @para QcNum) : Prop :=
  p_align p = ALeft /\ p_indent p = 0%Qc /\ ordinary (para_lead base p)
  /\ good_item ordinary unichar (ISpan (p_style p) (p_content p)).

Lemma cf_block_pos {ENV : Env QcNum} T (c : @colfill QcNum) b : (0 <= cf_free c)%Qc -> LayoutInside.block_in T c b ->
  ordinary (px (c_origin (cf_box c))) -> (Q2Qc (1 # 10000) <= py (c_origin (cf_box c)))%Qc ->
  (py (c_origin (cf_box c)) + c_height (cf_box c) < Q2Qc (999999 + (1 # 2)))%Qc ->
  ordinary (px (fst b)) /\ ordinary (py (fst b)).
Proof.
  intros F (lead & a & ls & _ & LP & PX & PT & PB & _) X Y H. rewrite PX. split; [exact X|].
  assert (NP : (0 <= nlines (List.length ls) * lead)%Qc).
  { rewrite <- (Qcmult_0_l lead). apply Qcmult_le_compat_r; [|apply Qclt_le_weak, LP]. unfold nlines.
    unfold Qcle. rewrite !this_Q2Qc. unfold Qle, inject_Z. cbn. lia. }
  set (n := (nlines (List.length ls) * lead)%Qc) in *. right; left. split; qc.
Qed.
Lemma good_impl {NUM : Num} (G G' : num -> Prop) UC i : (forall x, G x -> G' x) -> good_item G UC i -> good_item G' UC i.
Proof.
  intros H. induction i as [s|st c IH] using item_ind'; intros X; [exact X|]. apply good_span in X as [[A B] C]. apply good_span. split.
  - split; [intros z Z; apply H, A, Z|]. intros k K. destruct (B k K) as (B1 & B2 & B3). repeat split; apply H; assumption.
  - clear A B. unfold good_items in *. induction IH; inversion C; subst; constructor; auto.
Qed.
Lemma pages_ordinary : forall (ENV : Env QcNum) fuel ps template base pnum pages (h : Qc),
  all_split -> (forall f a b, ordinary (charkern f a b)) -> (0 <= h)%Qc -> room_for h template -> ordinary_columns template ->
  good_full ordinary base -> Forall (fun p => fits_lines h base p /\ ordinary_para base p) ps ->
  auto_pages fuel (map (@BPara QcNum) ps) template base pnum = Ok pages ->
  Forall (fun p => ops_in plain plain unichar (flat_map cf_ops (snd p))) pages.
Proof.
  intros ENV fuel ps template base pnum pages h AS KO H0 T OC GB B E.
  assert (X : Forall (fun p => Forall (fun c => roomy h c /\ LayoutInside.col_in False c /\ col_in plain plain unichar c
      /\ ordinary (px (c_origin (cf_box c))) /\ (Q2Qc (1 # 10000) <= py (c_origin (cf_box c)))%Qc
      /\ (py (c_origin (cf_box c)) + c_height (cf_box c) < Q2Qc (999999 + (1 # 2)))%Qc) (snd p)) pages).
  2:{ eapply Forall_impl; [|exact X]. intros p Hp. induction Hp as [|c l (_ & (F & _ & BI) & N & O1 & O2 & O3) _ IH]; [constructor|].
      cbn [flat_map]. apply ops_in_app. split; [|exact IH]. apply cf_ops_in; [|exact N].
      eapply Forall_impl; [|exact BI]. intros b Hb. destruct (cf_block_pos False c b F Hb O1 O2 O3). split; apply ordinary_plain; assumption. }
  set (K := fun c : @colfill QcNum => roomy h c /\ LayoutInside.col_in False c /\ col_in plain plain unichar c
      /\ ordinary (px (c_origin (cf_box c))) /\ (Q2Qc (1 # 10000) <= py (c_origin (cf_box c)))%Qc
      /\ (py (c_origin (cf_box c)) + c_height (cf_box c) < Q2Qc (999999 + (1 # 2)))%Qc).
  assert (NW : forall n c, In c (pg_columns (template n)) -> K (cf_new c)).
  { intros n c IC. destruct (T n) as (_ & F). rewrite Forall_forall in F. specialize (F c IC). specialize (OC n). rewrite Forall_forall in OC. specialize (OC c IC).
    split; [split|split; [split; [|split]|split]]; cbn.
    - eapply Qcle_trans; eauto.
    - auto.
    - eapply Qcle_trans; eauto.
    - apply Qcle_refl.
    - constructor.
    - constructor.
    - exact OC. }
  assert (G0 : plain (nneg (@n0 QcNum))) by (apply ordinary_plain; left; reflexivity).
  assert (GK : forall f a b, plain (nneg (charkern f a b))).
  { intros f a b. change (plain (Qcopp (charkern f a b) : @num QcNum)). apply ordinary_plain. specialize (KO f a b). set (k := charkern f a b) in *. change (@num QcNum) with Qc in k. clearbody k. destruct KO as [-> |[H|H]]; [left; reflexivity|right; right|right; left]; [|exact H].
    rewrite Qcopp_involutive. exact H. }
  eapply (auto_pages_spec (fun cs => roomy_from h cs /\ forall i, K (cs i)) K) in E as (_ & P & _).
  - apply Forall_forall. intros p IP. apply In_nth_error in IP as (k & N). apply (P k p N).
  - intros cs cs' EQ [[J1 J2] J3]. split; [split|]; intros i; rewrite <- EQ; auto.
  - apply Forall_forall. intros b IB. apply in_map_iff in IB as (p & <- & IP). intros cs out [J1 J2] O. rewrite Forall_forall in B.
    destruct (B p IP) as ((L1 & L2) & LA & IN & LD & GI). cbn [block_columns] in O. pose proof (para_only_adds _ _ _ _ _ O) as OA.
    split; [exact OA|]. pose proof OA as (NE & added & A).
    assert (RO : Forall K out).
    { pose proof (para_columns_good plain unichar fuel p base cs out G0 GK ltac:(reflexivity) AS
        ltac:(destruct GB as (G1 & G2 & G3 & G4); repeat split; apply ordinary_plain; assumption)
        (good_impl _ _ _ _ ordinary_plain GI) (ordinary_plain _ LD) LA ltac:(rewrite IN; reflexivity) ltac:(intros i; apply J2) O) as R3.
      assert (R4 : forall c, In c out -> exists i, cf_box c = cf_box (cs i)).
      { intros c IC. unfold adds in A. rewrite A in IC. apply in_map_iff in IC as (i & <- & _). exists i. apply fold_add. }
      unfold para_columns in O. change (max_lead _ _) with (para_lead base p) in O.
      pose proof (para_roomy h fuel p _ _ cs _ out L1 L2 J1 O) as R1.
      assert (PW : placed_well p) by (unfold placed_well; destruct (p_optimal p); [left; exact LA|exact Logic.I]).
      assert (TP : tight p -> False) by (intros (X1 & X2); congruence).
      pose proof (para_in False h fuel p _ _ PW TP cs _ out L1 L2 J1 ltac:(intros i; apply J2) O) as R2.
      rewrite Forall_forall in R1, R2, R3 |- *. intros c IC. split; [apply R1, IC|]. split; [apply R2, IC|]. split; [apply R3, IC|].
      destruct (R4 c IC) as (i & ->). apply J2. }
    split; [exact RO|]. rewrite Forall_forall in RO.
    split; [split; intros j|intros j]; unfold next_cols; set (i := _ + _).
    + destruct (nth_in_or_default i out (cs i)) as [I2| ->]; [|apply J1]. apply RO, I2.
    + rewrite nth_overflow; [|unfold i; lia]. destruct out as [|c0 out]; [congruence|].
      replace i with (S (List.length out + j)) by (unfold i; cbn; lia). apply J1.
    + destruct (nth_in_or_default i out (cs i)) as [I2| ->]; [|apply J2]. apply RO, I2.
  - intros n. apply T.
  - split; [split|].
    + apply (flat_new template pnum (roomy h)); [intros; apply T|intros; eapply NW; eauto].
    + apply (fresh_new template pnum). intros; apply T.
    + apply (flat_new template pnum K); [intros; apply T|intros; eapply NW; eauto].
  - exact NW.
Qed.
