(** * NumbersUsed: the numbers in what is rendered for left-aligned text.
    Sizes, colours, kerning and characters are as given, when lines are neither indented nor
    justified.
    For every arithmetic. *)
From Verif Require Import Base FontProofs Num Fonts State TextSpec StateProofs Style Words WordsSpec WordProofs WordOps Parse Render RenderSpec RenderProofs
  Firstfit FirstfitProofs KnuthPlass Optimum OptimumProofs Common Draw Layout LayoutStyle.
Open Scope nat_scope.

Section F.
Context {NUM : Num} {ENV : Env NUM}.
(** the numbers wanted *)
Variable G : num -> Prop.  (* of the kerning *)
Variable GP : num -> Prop. (* all others *)
Hypothesis G0 : G (nneg n0).
Hypothesis GK : forall f a b, G (nneg (charkern f a b)).
(** the characters wanted *)
Variable UC : char -> Prop.
Hypothesis U45 : UC 45%N.
Hypothesis US : all_split.
Definition rgb_in (c : rgb) : Prop := GP (red c) /\ GP (green c) /\ GP (blue c).

Fixpoint cmd_in (c : command) : Prop :=
  match c with
  | SetFont f z => GP z
  | SetColor c => rgb_in c
  | Chain l => (fix go (l : list command) : Prop := match l with [] => True | x :: r => cmd_in x /\ go r end) l
  | _ => True
  end.
Definition cmds_in (l : list command) : Prop := Forall cmd_in l.
Lemma chain_in l : cmd_in (Chain l) <-> cmds_in l.
Proof.
  cbn. induction l as [|x l IH]; [split; constructor|]. rewrite IH. unfold cmds_in. split.
  - intros []. constructor; auto.
  - intros H. inversion H; auto.
Qed.
Definition st_in (s : state) : Prop := GP (st_size s) /\ rgb_in (st_color s).
Fixpoint apply_in (c : command) : forall s, cmd_in c -> st_in s -> st_in (apply c s).
Proof.
  destruct c as [|f z|v|c|h|l]; intros s C S; try exact S; [split; [exact C|apply S]|split; [apply S|exact C]|].
  cbn [apply]. apply chain_in in C. revert s S. induction l as [|x l IH]; intros s S; [exact S|].
  cbn [fold_left]. inversion C as [|? ? C1 C2]; subst. apply IH; [exact C2|]. apply apply_in; assumption.
Qed.
Lemma dict_set_in d c : cmds_in d -> cmd_in c -> cmds_in (dict_set d c).
Proof.
  intros D C. induction D as [|x r X D IH]; cbn; [constructor; [exact C|constructor]|].
  destruct (ctag x =? ctag c); constructor; auto.
Qed.
Lemma fold_dict_in l : forall d, cmds_in d -> cmds_in l -> cmds_in (fold_left dict_set l d).
Proof.
  induction l as [|c l IH]; intros d D L; [exact D|]. inversion L; subst. cbn. apply IH; [|assumption].
  apply dict_set_in; assumption.
Qed.
Lemma squash_in l : cmds_in l -> cmd_in (squash l).
Proof.
  intros L. assert (H := fold_dict_in l [] (Forall_nil _) L). unfold squash. destruct (fold_left dict_set l []) as [|a [|b r]].
  - exact I.
  - inversion H; assumption.
  - apply chain_in, H.
Qed.
Lemma cmds_app a b : cmds_in (a ++ b) <-> cmds_in a /\ cmds_in b.
Proof. unfold cmds_in. rewrite Forall_app. reflexivity. Qed.

(** ** Words *)
Definition kern_in (k : list (nat * num)) : Prop := Forall (fun e => G (nneg (snd e))) k.
Definition txt_in (t : str) : Prop := Forall UC t.
Definition slug_in (s : slug) : Prop := st_in (sl_state s) /\ kern_in (sl_kern s) /\ txt_in (sl_txt s).
Definition box_in (b : box) : Prop :=
  match b with
  | BSlug s => slug_in s
  | BMixed segs st => Forall (fun p => slug_in (fst p) /\ cmd_in (snd p)) segs /\ st_in st
  end.
Definition tail_in (t : option tspace) : Prop := match t with Some t => G (nneg (ts_kern t)) | None => True end.
Definition word_in (w : word) : Prop := Forall box_in (w_boxes w) /\ st_in (w_state w) /\ tail_in (w_tail w).
Fixpoint wl_in (w : wordlike) : Prop :=
  match w with WBox b => box_in b | WWord w => word_in w | WCmd w c => wl_in w /\ cmd_in c end.
Definition wls_in (l : list wordlike) : Prop := Forall wl_in l.

Lemma box_state_in b : box_in b -> st_in (box_state b).
Proof. destruct b; cbn; [intros [H _]; exact H|]. intros [_ H]; exact H. Qed.
Lemma wl_state_in w : wl_in w -> st_in (wl_state w).
Proof.
  induction w as [b|x|w IH c]; cbn.
  - apply box_state_in.
  - intros H; apply H.
  - intros [H C]. apply apply_in; auto.
Qed.
Lemma slug_without_in s : slug_in s -> slug_in (slug_without_init_kern s).
Proof.
  unfold slug_in. rewrite (proj2 (slug_without_alike s)), (proj1 (slug_without_alike s)). intros (A & B & C). split; [exact A|]. split; [|exact C].
  unfold slug_without_init_kern. destruct (sl_kern s) as [|[[|i] k] r] eqn:K; cbn [sl_txt sl_kern]; rewrite ?K; try exact B.
  inversion B; subst. assumption.
Qed.
Lemma font_kern_in f t prev : kern_in (font_kern f t prev).
Proof.
  unfold font_kern, kern_in. specialize (GK f). unfold charkern in GK. destruct (kerntab f) as [tab|]; [|constructor].
  apply Forall_forall. intros [i k] Hin. cbn [snd]. unfold kern in Hin.
  destruct prev; apply kern_from_in in Hin as (a & b & _ & _ & -> & _); apply GK.
Qed.
Lemma slug_new_in t st prev : st_in st -> txt_in t -> slug_in (slug_new t st prev).
Proof. intros H T. split; [exact H|]. split; [apply font_kern_in|exact T]. Qed.
Lemma slug_hyphen_in s : slug_in s -> slug_in (slug_with_hyphen s).
Proof.
  intros (A & B & C). split; [exact A|]. cbn [slug_with_hyphen sl_txt sl_kern].
  split; [|apply Forall_app; split; [exact C|constructor; [exact U45|constructor]]].
  destruct (ntruthy _); [|exact B]. apply Forall_app. split; [exact B|]. constructor; [apply GK|constructor].
Qed.
Lemma box_without_in b : box_in b -> box_in (box_without_init_kern b).
Proof.
  destruct b as [s|[|[s c] r] st]; cbn; auto using slug_without_in.
  intros [H S]. split; [|exact S]. inversion H as [|? ? [X C] H']; subst. constructor; [|exact H'].
  split; [apply slug_without_in, X|exact C].
Qed.
Lemma box_hyphen_in b : box_in b -> box_in (box_with_hyphen b).
Proof.
  destruct b as [s|segs st]; cbn; [apply slug_hyphen_in|]. intros [H S]. split; [|exact S]. apply Forall_app. split; [exact H|].
  constructor; [|constructor]. split; [apply slug_new_in; [exact S|constructor; [exact U45|constructor]]|exact I].
Qed.
Lemma word_without_in w : word_in w -> word_in (word_without_init_kern w).
Proof.
  intros (H & S & T). unfold word_without_init_kern. destruct (w_boxes w) as [|b r] eqn:E.
  - destruct (w_tail w) as [t|] eqn:ET; [destruct (ntruthy _)|]; split; cbn; rewrite ?E, ?ET; auto. 
  - destruct (box_has_init_kern b); [|split; [rewrite E|]; auto]. inversion H; subst. split; [|auto].
    cbn. constructor; [apply box_without_in|]; assumption.
Qed.
Lemma wl_without_in w : wl_in w -> wl_in (wl_without_init_kern w).
Proof. induction w; cbn; [apply box_without_in|apply word_without_in|]. intros [H C]; auto. Qed.
Lemma with_cmd_in w c : wl_in w -> cmd_in c -> wl_in (with_cmd w c).
Proof. intros H C. destruct c; cbn [with_cmd]; try exact H; split; assumption. Qed.
Lemma wl_pruned_in w : wl_in w -> wl_in (wl_pruned w).
Proof.
  induction w as [b|x|w IH c]; cbn; auto.
  - intros (H & S & T). unfold word_pruned. destruct (w_tail x) eqn:ET; split; cbn; rewrite ?ET; auto.
  - intros [H C]; auto.
Qed.
Lemma wl_tail_in w : wl_in w -> tail_in (wl_tail w).
Proof. induction w as [b|x|w IH c]; cbn; [intros; exact I|intros H; apply H|intros [H _]; auto]. Qed.
Lemma indent_first_none ws x ws' : ntruthy x = false -> indent_first ws x = Ok ws' -> ws' = ws.
Proof.
  intros X. destruct ws as [|w r]; cbn; intros E; [apply Ok_inj in E; auto|]. apply bind_ok in E as (w' & E & E2). apply Ok_inj in E2. subst. f_equal.
  destruct w as [[s|segs st]|y|w c]; cbn [wl_indent box_indent] in E.
  - unfold slug_indent in E. rewrite X in E. apply rmap_inv in E as (b & E & ->). apply rmap_inv in E as (s' & E & ->). apply Ok_inj in E. subst. reflexivity.
  - rewrite X in E. apply rmap_inv in E as (b & E & ->). apply Ok_inj in E. subst. reflexivity.
  - unfold word_indent in E. rewrite X in E. apply rmap_inv in E as (b & E & ->). apply Ok_inj in E. subst. reflexivity.
  - rewrite X in E. apply Ok_inj in E. auto.
Qed.
Lemma hyph_loop_in b rest : forall space fit x, box_in b -> Forall box_in rest -> Forall box_in fit ->
  hyph_loop b rest space fit = Ok x ->
  let '(fitting, st, nb, r) := x in Forall box_in fitting /\ st_in st /\ box_in nb /\ Forall box_in r.
Proof.
  revert b. induction rest as [|nb r IH]; intros b space fit x B R Fi E; [discriminate|]. cbn [hyph_loop] in E.
  inversion R; subst. destruct (nltb _ _).
  - apply Ok_inj in E. subst x. split; [|split; [apply box_state_in, B|auto]].
    apply Forall_app. split; [exact Fi|]. constructor; [apply box_hyphen_in, B|constructor].
  - eapply IH in E; eauto. apply Forall_app. split; [exact Fi|]. constructor; [exact B|constructor].
Qed.
Lemma wl_hyphenate_in w space : forall a b, wl_in w -> wl_hyphenate w space = Ok (a, b) ->
  (forall x, a = Some x -> wl_in x) /\ wl_in b.
Proof.
  induction w as [bx|y|w IH c]; intros a b H E; cbn [wl_hyphenate] in E.
  - apply Ok_inj in E. injection E as <- <-. split; [discriminate|exact H].
  - apply rmap_inv in E as ([p q] & E & E2). injection E2 as -> ->. unfold word_hyphenate in E. cbn in H. destruct H as (H & S & T).
    destruct (w_boxes y) as [|b0 r] eqn:EB.
    + apply Ok_inj in E. injection E as <- <-. split; [discriminate|]. apply word_without_in. split; [rewrite EB|]; auto.
    + destruct (nltb _ _).
      * apply Ok_inj in E. injection E as <- <-. split; [discriminate|]. apply word_without_in. split; [rewrite EB|]; auto.
      * apply bind_ok in E as ([[[fitting st] nb] r'] & E & E2). apply Ok_inj in E2. injection E2 as <- <-.
        inversion H; subst. apply hyph_loop_in in E as (A1 & A2 & A3 & A4); auto. cbn. split.
        -- intros x X. injection X as <-. split; [auto|]. split; [exact A2|exact I].
        -- split; [|auto]. cbn. constructor; [apply box_without_in|]; assumption.
  - apply rmap_inv in E as ([p q] & E & E2). injection E2 as -> ->. destruct H as [H C].
    destruct (IH _ _ H E) as [A B]. split; [exact A|]. apply with_cmd_in; assumption.
Qed.
Lemma wl_minimal_in w : forall a b, wl_in w -> wl_minimal w = (a, b) ->
  wl_in a /\ (forall x, b = Some x -> wl_in x).
Proof.
  induction w as [bx|y|w IH c]; intros a b H E; cbn [wl_minimal] in E.
  - injection E as <- <-. split; [exact H|discriminate].
  - unfold word_minimal in E. destruct (w_boxes y) as [|b1 [|b2 r]] eqn:EB; cbn in E; injection E as <- <-.
    + split; [exact H|discriminate].
    + split; [exact H|discriminate].
    + destruct H as (H & S & T). rewrite EB in H. inversion H as [|? ? H1 H2]; subst. inversion H2; subst. split.
      * split; [|split; [apply box_state_in, H1|exact I]]. cbn. constructor; [apply box_hyphen_in, H1|constructor].
      * intros x X. injection X as <-. split; [|auto]. cbn. constructor; [apply box_without_in|]; assumption.
  - destruct H as [H C]. destruct (wl_minimal w) as [a' b'] eqn:EM. destruct (IH _ _ H eq_refl) as [A B].
    destruct b' as [b'|]; injection E as <- <-.
    + split; [exact A|]. intros x X. injection X as <-. apply with_cmd_in; auto.
    + split; [apply with_cmd_in; auto|discriminate].
Qed.

(** ** Parsing *)
Lemma slugs_new_in parts st : forall prev bs, st_in st -> Forall txt_in parts -> slugs_new parts st prev = Ok bs -> Forall box_in bs.
Proof.
  induction parts as [|p r IH]; intros prev bs S T E; cbn in E; [apply Ok_inj in E; subst; constructor|].
  inversion T; subst. destruct p as [|c p]; [discriminate|]. apply bind_ok in E as (bs' & E & E2). apply Ok_inj in E2. subst bs.
  constructor; [apply slug_new_in; assumption|eapply IH; eauto].
Qed.
Lemma tspace_in st prev : tail_in (Some (tspace_new st prev)).
Proof. cbn. destruct prev; [apply GK|exact G0]. Qed.
Lemma word_new_in s st prev w : st_in st -> txt_in s -> word_new s st prev = Ok w -> word_in w.
Proof.
  unfold word_new. intros S U' E. assert (TT : tail_in (snd (tspace_parse s st prev))).
  { unfold tspace_parse. destruct s; [exact I|]. destruct (_ =? _)%N; [|exact I]. apply tspace_in. }
  assert (UT : txt_in (fst (tspace_parse s st prev))).
  { unfold tspace_parse. destruct s as [|c s]; [exact U'|]. destruct (_ =? _)%N; [|exact U']. cbn [fst]. clear -U'. unfold txt_in in *.
    revert U'. generalize (c :: s). intros l H. induction H as [|x l X H IH]; [constructor|]. cbn. destruct l; constructor; auto. }
  destruct (tspace_parse s st prev) as [s' tail]. cbn [fst snd] in TT, UT. apply bind_ok in E as (parts & EP & E).
  assert (UP : Forall txt_in parts).
  { destruct (into_syllables_spec _ s' (US (st_hyphens st))) as (parts' & E' & C & _). rewrite E' in EP. apply Ok_inj in EP. subst parts'.
    rewrite <- C in UT. clear -UT. induction parts as [|p r IH]; [constructor|]. cbn in UT. apply Forall_app in UT as [A B]. constructor; auto. }
  apply bind_ok in E as (bs & E & E2). apply Ok_inj in E2. subst w. split; [eapply slugs_new_in; eauto|split; [exact S|exact TT]].
Qed.
Lemma simple_words_in fuel : forall t st prev x, st_in st -> txt_in t -> simple_words fuel t st prev = Ok x ->
  Forall word_in (fst x) /\ (forall h, snd x = inl h -> txt_in h) /\ (forall w, snd x = inr w -> word_in w).
Proof.
  induction fuel as [|fuel IH]; intros t st prev x S T E; [discriminate|]. cbn [simple_words] in E.
  destruct (split_word t) as [[w r]|] eqn:ES.
  2:{ apply Ok_inj in E; subst; cbn. split; [constructor|]. split; [intros h X; injection X as <-; exact T|discriminate]. }
  apply split_word_app in ES as (-> & _). apply Forall_app in T as [T1 T2].
  apply bind_ok in E as (y & EY & E). apply word_new_in in EY; [|exact S|exact T1]. destruct r as [|c r].
  - apply Ok_inj in E. subst. split; [constructor|]. split; [discriminate|]. intros w0 X. injection X as <-. exact EY.
  - apply bind_ok in E as (z & EZ & E). apply Ok_inj in E. subst. apply IH in EZ as (A & B & C); [|exact S|exact T2].
    split; [constructor; auto|]. split; [exact B|exact C].
Qed.
Definition psg_in (ps : list passage) : Prop := Forall (fun p => cmd_in (fst p) /\ txt_in (snd p)) ps.
Lemma take_parts_in it : psg_in it -> psg_in (fst (take_parts it))
  /\ (forall t it', snd (take_parts it) = Some (t, it') -> txt_in t /\ psg_in it').
Proof.
  induction it as [|[cmd t] it IH]; intros H; cbn [take_parts]; [split; [constructor|discriminate]|].
  inversion H as [|? ? C H']; subst. destruct (split_word t) as [[w r]|] eqn:ES.
  - destruct C as [C T]. cbn in C, T. apply split_word_app in ES as (-> & _). apply Forall_app in T as [T1 T2].
    cbn. split; [constructor; [split; assumption|constructor]|]. intros ? ? X. injection X as <- <-. split; assumption.
  - destruct (IH H') as [A B]. destruct (take_parts it) as [ps x]. cbn in *. split; [constructor; auto|exact B].
Qed.
Lemma cut_parts_in ps : psg_in ps -> psg_in (cut_parts ps).
Proof.
  intros H. unfold cut_parts, psg_in, passage in *. apply Forall_rev in H. destruct (rev ps) as [|[c w] r]; [constructor|].
  apply Forall_rev. inversion H as [|? ? [C T] H']; subst. constructor; [|assumption]. split; [exact C|]. cbn [fst snd] in *. unfold cut_space. destruct (ends_with_space w); [|exact T].
  clear -T. unfold txt_in in *. induction T as [|x l X T IH]; [constructor|]. cbn. destruct l; constructor; auto.
Qed.
Lemma segments_in parts : forall seg prev st cmds, psg_in parts -> slug_in seg -> st_in st -> cmds_in cmds ->
  let '(l, p, s) := segments parts seg prev st cmds in
  Forall (fun p => slug_in (fst p) /\ cmd_in (snd p)) l /\ st_in s.
Proof.
  induction parts as [|[cmd t] r IH]; intros seg prev st cmds P SG S C; cbn [segments].
  - split; [|exact S]. constructor; [|constructor]. split; [exact SG|apply squash_in, C].
  - inversion P as [|? ? [C1 T1] P']; subst. cbn in C1, T1. assert (S' := apply_in cmd st C1 S).
    assert (CC : cmds_in (cmds ++ [cmd])) by (apply cmds_app; split; [exact C|constructor; [exact C1|constructor]]).
    destruct t as [|ch t].
    + apply IH; auto.
    + specialize (IH (slug_new (ch :: t) (apply cmd st) (if kerns_with st (apply cmd st) then prev else None))
                     (Some (str_last (ch :: t))) (apply cmd st) [] P' (slug_new_in _ _ _ S' T1) S' (Forall_nil _)).
      destruct (segments r _ _ _ _) as [[l p] s]. destruct IH as [A B]. split; [|exact B].
      constructor; [|exact A]. split; [exact SG|apply squash_in, CC].
Qed.
Lemma complete_word_in it head st x : psg_in it -> st_in st -> txt_in head -> complete_word it head st = Ok x ->
  word_in (fst x) /\ (forall t it', snd x = Some (t, it') -> txt_in t /\ psg_in it').
Proof.
  unfold complete_word. intros P S T E. destruct (take_parts_in it P) as [A B]. destruct (take_parts it) as [parts next].
  cbn [fst snd] in *. destruct parts as [|p0 parts].
  - apply bind_ok in E as (w & E & E2). apply Ok_inj in E2. subst. split; [eapply word_new_in; eauto|discriminate].
  - set (parts' := match next with Some _ => cut_parts (p0 :: parts) | None => p0 :: parts end) in E.
    assert (P' : psg_in parts') by (unfold parts'; destruct next; [apply cut_parts_in|]; exact A).
    assert (SI := segments_in parts' (slug_new head st None) (Some (slug_last (slug_new head st None))) st []
                   P' (slug_new_in _ _ _ S T) S (Forall_nil _)).
    destruct (segments parts' _ _ _ _) as [[segs prev] st']. destruct SI as [SI S']. apply Ok_inj in E. subst x. cbn [fst snd].
    split; [|exact B]. split; [|split; [exact S'|]].
    + cbn. constructor; [|constructor]. split; assumption.
    + cbn [w_tail]. match goal with |- tail_in (if ?c then _ else _) => destruct c end; [apply tspace_in|exact I].
Qed.
Lemma parse_loop_in fuel : forall it st txt x, psg_in it -> st_in st -> txt_in txt -> parse_loop fuel it st txt = Ok x -> wls_in (fst x).
Proof.
  induction fuel as [|fuel IH]; intros it st txt x P S T E; [discriminate|]. cbn [parse_loop] in E.
  destruct txt as [|c txt]; [apply Ok_inj in E; subst; constructor|]. remember (c :: txt) as tx.
  apply bind_ok in E as ([ws last] & EW & E). apply simple_words_in in EW as (A & BH & B); [|exact S|exact T]. cbn [fst snd] in A, B, BH.
  assert (A' : wls_in (map WWord ws)).
  { apply Forall_forall. intros w I. apply in_map_iff in I as (y & <- & I). rewrite Forall_forall in A. apply A, I. }
  assert (FIN : forall (lw : word) (s : state) (it : list passage) y, word_in lw -> st_in s -> psg_in it ->
    match it with
    | [] => Ok (map WWord ws ++ [WWord lw], true)
    | (cmd, t) :: it' =>
        do y <- parse_loop fuel it' (apply cmd s) t;
        Ok (map WWord ws ++ with_cmd (WWord lw) cmd :: fst y, snd y)
    end = Ok y -> wls_in (fst y)).
  { intros lw s it0 y W S0 P0 E0. destruct it0 as [|[cmd t] it'].
    - apply Ok_inj in E0. subst. apply Forall_app. split; [exact A'|]. constructor; [exact W|constructor].
    - inversion P0 as [|? ? [C T1] P1]; subst. apply bind_ok in E0 as (z & EZ & E0). apply Ok_inj in E0. subst.
      apply IH in EZ; [|exact P1|apply apply_in; [exact C|exact S0]|exact T1].
      apply Forall_app. split; [exact A'|]. constructor; [apply with_cmd_in; [exact W|exact C]|exact EZ]. }
  destruct last as [head|w].
  - apply bind_ok in E as ([w next] & EC & E). apply complete_word_in in EC as [W N]; [|exact P|exact S|apply BH; reflexivity].
    cbn [fst snd] in W, N. destruct next as [[[|c1 r] it']|].
    + exact (FIN w (w_state w) it' x W (proj1 (proj2 W)) (proj2 (N _ _ eq_refl)) E).
    + apply bind_ok in E as (z & EZ & E). apply Ok_inj in E. subst x. apply IH in EZ; [|eapply N; reflexivity|apply W|eapply N; reflexivity].
      apply Forall_app. split; [exact A'|]. constructor; [exact W|exact EZ].
    + apply Ok_inj in E. subst x. apply Forall_app. split; [exact A'|]. constructor; [exact W|constructor].
  - exact (FIN w st it x (B w eq_refl) S P E).
Qed.
Lemma fold_commands_in it : forall st buf, psg_in it -> st_in st -> cmds_in buf ->
  let '(c, x, s) := fold_commands it st buf in
  cmd_in c /\ st_in s /\ (forall t it', x = Some (t, it') -> txt_in t /\ psg_in it').
Proof.
  induction it as [|[cmd t] it IH]; intros st buf P S C; cbn [fold_commands].
  - split; [apply squash_in, C|]. split; [exact S|discriminate].
  - inversion P as [|? ? [C1 T1] P']; subst. cbn in C1, T1. assert (S' := apply_in cmd st C1 S).
    assert (CC : cmds_in (buf ++ [cmd])) by (apply cmds_app; split; [exact C|constructor; [exact C1|constructor]]).
    destruct t as [|c t]; [apply IH; auto|]. split; [apply squash_in, CC|]. split; [exact S'|].
    intros ? ? X. injection X as <- <-. auto.
Qed.
Lemma into_words_in ps st x : psg_in ps -> st_in st -> into_words ps st = Ok x ->
  let '(c, ws, ex) := x in cmd_in c /\ wls_in ws.
Proof.
  unfold into_words. intros P S E. assert (FC := fold_commands_in ps st [] P S (Forall_nil _)).
  destruct (fold_commands ps st []) as [[c y] s]. destruct FC as (C & S' & N). destruct y as [[t it']|].
  - apply bind_ok in E as (z & EZ & E). apply Ok_inj in E. subst x. split; [exact C|].
    eapply parse_loop_in; [|exact S'| |exact EZ]; eapply N; reflexivity.
  - apply Ok_inj in E. subst. split; [exact C|constructor].
Qed.
Lemma group_in fuel : forall cmd txt cont it, cmd_in cmd -> txt_in txt -> psg_in it ->
  psg_in (fst (group fuel cmd txt cont it))
  /\ (forall c t it', snd (group fuel cmd txt cont it) = Some (c, t, it') -> cmd_in c /\ txt_in t /\ psg_in it').
Proof.
  induction fuel as [|fuel IH]; intros cmd txt cont it C T P; cbn [group]; [split; [constructor|discriminate]|].
  assert (C' : cmd_in (if cont then NoOp else cmd)) by (destruct cont; [exact I|exact C]).
  destruct (split_newline txt) as [[b a]|] eqn:SN.
  - assert (TB : txt_in b /\ txt_in a).
    { apply split_newline_app in SN as [-> | ->]; apply Forall_app in T as [T1 T2]; (split; [exact T1|]); [|apply Forall_inv_tail in T2]; exact (Forall_inv_tail T2). }
    destruct TB as [T1 T2]. cbn. split; [constructor; [split; assumption|constructor]|]. intros ? ? ? X. injection X as <- <- <-. auto.
  - destruct it as [|[cmd' txt'] it']; [split; [constructor; [split; assumption|constructor]|discriminate]|].
    inversion P as [|? ? [C1 T1] P']; subst. destruct (IH cmd' txt' false it' C1 T1 P') as [A B].
    destruct (group fuel cmd' txt' false it') as [g nxt]. cbn in *. split; [constructor; [split; assumption|exact A]|exact B].
Qed.
Lemma groups_in fuel : forall cmd txt cont it, cmd_in cmd -> txt_in txt -> psg_in it -> Forall psg_in (groups fuel cmd txt cont it).
Proof.
  induction fuel as [|fuel IH]; intros cmd txt cont it C T P; [constructor|]. cbn [groups].
  destruct (group_in (S (List.length it)) cmd txt cont it C T P) as [A B]. destruct (group _ cmd txt cont it) as [g nxt].
  cbn in A, B. constructor; [exact A|]. destruct nxt as [[[c t] it']|]; [|constructor].
  destruct (B _ _ _ eq_refl) as (B1 & B2 & B3). apply IH; assumption.
Qed.
Lemma splitlines_in ps : psg_in ps -> Forall psg_in (splitlines ps).
Proof.
  destruct ps as [|[cmd txt] it]; intros P; [constructor|]. inversion P as [|? ? [C T] P']; subst. apply groups_in; assumption.
Qed.

(** ** First fit *)
Lemma fit_words_in ws : forall space content, wls_in ws -> wls_in content ->
  let '(c, s, stop) := fit_words ws space content in
  wls_in c /\ (forall w r, stop = Some (w, r) -> wl_in w /\ wls_in r).
Proof.
  induction ws as [|w r IH]; intros space content W C; cbn [fit_words]; [split; [exact C|discriminate]|].
  inversion W; subst. destruct (nltb _ _).
  - split; [exact C|]. intros ? ? X. injection X as <- <-. auto.
  - apply IH; [assumption|]. apply Forall_app. split; [exact C|]. constructor; [assumption|constructor].
Qed.
Definition owls_in (o : option (list wordlike)) : Prop := match o with Some ws => wls_in ws | None => True end.
Lemma removelast_in {A} (P : A -> Prop) l : Forall P l -> Forall P (removelast l).
Proof. intros H. induction H as [|x l X H IH]; [constructor|]. cbn. destruct l; constructor; auto. Qed.
Lemma take_line_in ws width x : wls_in ws -> take_line ws width = Ok x -> owls_in (fst x) /\ wls_in (l_words (snd x)).
Proof.
  unfold take_line. intros W E. assert (FW := fit_words_in ws width [] W (Forall_nil _)).
  destruct (fit_words ws width []) as [[content space] stop]. destruct FW as [C N]. destruct stop as [[w r]|].
  2:{ apply Ok_inj in E. subst. split; [exact I|exact C]. }
  destruct (N _ _ eq_refl) as [HW HR]. apply bind_ok in E as ([last dangling] & EH & E).
  destruct (wl_hyphenate_in w space last dangling HW EH) as [HL HD]. destruct last as [lw|].
  - apply Ok_inj in E. subst. cbn. split; [constructor; assumption|]. apply Forall_app. split; [exact C|].
    constructor; [apply HL; reflexivity|constructor].
  - destruct (rev content) as [|y yr] eqn:ER.
    + destruct (wl_minimal dangling) as [m leftover] eqn:EM. destruct (wl_minimal_in _ _ _ HD EM) as [HM HLO].
      destruct leftover as [y|].
      * apply Ok_inj in E. subst. cbn. split; [constructor; [apply HLO; reflexivity|exact HR]|constructor; [exact HM|constructor]].
      * destruct r; apply Ok_inj in E; subst; cbn; (split; [auto|constructor; [exact HM|constructor]]).
    + assert (HY : wl_in y).
      { assert (In y content) by (apply in_rev; rewrite ER; left; reflexivity). unfold wls_in in C. rewrite Forall_forall in C. auto. }
      destruct (ntruthy (wl_prunable y)); apply Ok_inj in E; subst; cbn; (split; [constructor; assumption|]).
      * apply Forall_app. split; [apply removelast_in, C|constructor; [apply wl_pruned_in, HY|constructor]].
      * exact C.
Qed.
Definition lines_in (ls : list line) : Prop := Forall (fun l => wls_in (l_words l)) ls.
Definition filled_in (b : filled) : Prop := owls_in (b_rest b) /\ lines_in (b_lines b) /\ owls_in (b_undo b).
Lemma take_lines_in n : forall q prev width ls b, owls_in q -> owls_in prev -> lines_in ls ->
  take_lines n q prev width ls = Ok b -> filled_in b.
Proof.
  induction n as [|n IH]; intros q prev width ls b Q P L E; cbn [take_lines] in E.
  - destruct q; apply Ok_inj in E; subst; repeat split; auto.
  - destruct q as [ws|]; [|apply Ok_inj in E; subst; repeat split; auto].
    apply bind_ok in E as (x & EX & E). apply take_line_in in EX as [A B]; [|exact Q].
    eapply IH in E; eauto. apply Forall_app. split; [exact L|]. constructor; [exact B|constructor].
Qed.
Lemma take_box_in q col ae lead b : owls_in q -> take_box q col ae lead = Ok b -> filled_in b.
Proof.
  unfold take_box. intros Q E. destruct (neqb lead n0); [discriminate|]. eapply take_lines_in; [| | |exact E]; auto. constructor.
Qed.
Lemma shape_simple_in fuel : forall ws cols ae lead x, owls_in ws ->
  shape_simple fuel ws cols ae lead = Ok x -> Forall lines_in x.
Proof.
  induction fuel as [|fuel IH]; intros ws cols ae lead x W E; [discriminate|]. cbn [shape_simple] in E.
  apply bind_ok in E as (b & EB & E). apply take_box_in in EB as (R & L & UU); [|exact W].
  destruct (b_rest b) as [ws'|].
  - apply bind_ok in E as (r & ER & E). apply Ok_inj in E. subst. constructor; [exact L|]. eapply IH; [|exact ER]. exact R.
  - apply Ok_inj in E. subst. constructor; [exact L|constructor].
Qed.
Lemma orphan_loop_in fuel : forall ws ls undo cols lead x, owls_in ws -> lines_in ls -> owls_in undo ->
  orphan_loop fuel ws ls undo cols lead = Ok x -> Forall lines_in x.
Proof.
  induction fuel as [|fuel IH]; intros ws ls undo cols lead x W LS UU E; [discriminate|]. cbn [orphan_loop] in E.
  apply bind_ok in E as (b & EB & E). apply take_box_in in EB as (R & L & UU'); [|exact W].
  destruct (b_rest b) as [ws'|].
  - apply bind_ok in E as (r & ER & E). apply Ok_inj in E. subst. constructor; [exact LS|].
    eapply IH; [| | |exact ER]; auto.
  - assert (D : Forall lines_in [ls; b_lines b]) by (repeat constructor; assumption).
    destruct (_ && _ && _); [|apply Ok_inj in E; subst; exact D].
    destruct undo as [u|]; [|discriminate]. apply bind_ok in E as (n & EN & E). apply take_box_in in EN as (R' & L' & U2); [|exact UU].
    destruct (_ =? 1); [apply Ok_inj in E; subst; exact D|]. eapply IH; [| | |exact E]; auto. apply removelast_in, LS.
Qed.
Lemma ff_shape_in fuel ws cols ae lead av x : wls_in ws -> ff_shape fuel ws cols ae lead av false = Ok x -> Forall lines_in x.
Proof.
  unfold ff_shape. intros W E. apply bind_ok in E as (cs & EC & E).
  assert (C : Forall lines_in cs).
  { destruct av; [|eapply shape_simple_in; [|exact EC]; exact W]. unfold shape_orphans in EC.
    apply bind_ok in EC as (b & EB & EC). apply take_box_in in EB as (R & L & UU); [|exact W].
    destruct (b_rest b) as [ws'|]; [|apply Ok_inj in EC; subst; constructor; [exact L|constructor]].
    destruct (_ && _); (eapply orphan_loop_in; [| | |exact EC]; auto). constructor. }
  apply Ok_inj in E. subst. exact C.
Qed.

(** ** Optimal *)
Definition frag_in (f : fragment) : Prop :=
  wl_in (fr_txt f) /\ (forall x, fr_break f = Some x -> wl_in x) /\ cmd_in (fr_cmd f).
Lemma chunk_boxes_in bs : forall width stretch shrink, Forall box_in bs ->
  Forall (fun p => frag_in (fst p)) (fst (chunk_boxes bs width stretch shrink)).
Proof.
  induction bs as [|b r IH]; intros width stretch shrink H; [constructor|]. cbn [chunk_boxes]. inversion H; subst.
  specialize (IH (nadd width (box_width b)) stretch shrink ltac:(assumption)).
  destruct (chunk_boxes r _ _ _) as [l w]. cbn [fst] in *. constructor; [|exact IH].
  split; [assumption|]. split; [|exact I]. cbn. intros x X. injection X as <-. apply box_hyphen_in. assumption.
Qed.
Lemma wl_boxes_in w : wl_in w -> Forall box_in (wl_boxes w).
Proof.
  induction w as [b|x|w IH c]; cbn; [intros H; constructor; [exact H|constructor]|intros [H _]; exact H|intros [H _]; auto].
Qed.
Lemma rev_head_in {A} (P : A -> Prop) l x r : Forall P l -> rev l = x :: r -> P x.
Proof. intros H E. rewrite Forall_forall in H. apply H, in_rev. rewrite E. left. reflexivity. Qed.
Lemma word_boxes_in just w width stretch shrink x : wl_in w -> word_boxes just w width stretch shrink = Ok x ->
  Forall (fun p => frag_in (fst p)) (fst (fst (fst x))).
Proof.
  unfold word_boxes. intros W E.
  assert (UU : wl_in (fst (unwrap w)) /\ cmd_in (snd (unwrap w))).
  { destruct w; cbn in *; auto. }
  destruct (unwrap w) as [y cmd]. cbn [fst snd] in UU. destruct UU as [Y C].
  assert (TY := wl_tail_in y Y). assert (B := wl_boxes_in y Y). assert (CB := chunk_boxes_in (removelast (wl_boxes y)) width stretch shrink (removelast_in _ _ B)).
  destruct (chunk_boxes _ width stretch shrink) as [chunks width']. cbn [fst] in CB.
  destruct (wl_tail y) as [t|].
  - apply Ok_inj in E. subst x. cbn [fst]. apply Forall_app. split; [exact CB|]. constructor; [|constructor].
    cbn [fst]. destruct (rev (wl_boxes y)) as [|b r] eqn:ER.
    + split; [split; [constructor|split; [apply wl_state_in, Y|exact TY]]|]. split; [discriminate|exact C].
    + assert (HB := rev_head_in _ _ _ _ B ER).
      split; [split; [constructor; [exact HB|constructor]|split; [apply wl_state_in, Y|exact TY]]|]. split; [|exact C].
      cbn. intros z X. injection X as <-. exact HB.
  - destruct (rev (wl_boxes y)) as [|b r] eqn:ER; [discriminate|]. assert (HB := rev_head_in _ _ _ _ B ER).
    apply Ok_inj in E. subst x. cbn [fst]. apply Forall_app. split; [exact CB|]. constructor; [|constructor].
    split; [exact HB|]. split; [|exact C]. cbn. intros z X. injection X as <-. exact HB.
Qed.
Lemma words_boxes_in just ws : forall width stretch shrink l, wls_in ws ->
  words_boxes just ws width stretch shrink = Ok l -> Forall (fun p => frag_in (fst p)) l.
Proof.
  induction ws as [|w r IH]; intros width stretch shrink l W E; cbn [words_boxes] in E; [apply Ok_inj in E; subst; constructor|].
  inversion W; subst. apply bind_ok in E as ([[[l1 wd] s1] s2] & E1 & E). apply bind_ok in E as (l2 & E2 & E).
  apply Ok_inj in E. subst. apply Forall_app. split; [|eapply IH; eauto].
  apply word_boxes_in in E1; [exact E1|assumption].
Qed.
Lemma line_words_in fs ws : Forall frag_in fs -> line_words fs = Ok ws -> wls_in ws.
Proof.
  unfold line_words. intros H E. apply Forall_rev in H. destruct (rev fs) as [|last ri]; [discriminate|].
  inversion H as [|? ? (L1 & L2 & L3) H']; subst.
  assert (B : wls_in (map (fun f => with_cmd (fr_txt f) (fr_cmd f)) (rev ri))).
  { apply Forall_forall. intros w I. apply in_map_iff in I as (f & <- & I). apply in_rev in I.
    rewrite Forall_forall in H'. destruct (H' f I) as (F1 & _ & F3). apply with_cmd_in; assumption. }
  destruct (fr_break last) as [tail|].
  - apply Ok_inj in E. subst. apply Forall_app. split; [exact B|]. constructor; [apply with_cmd_in; auto|constructor].
  - apply Forall_rev in B. destruct (rev (map _ (rev ri))) as [|x r]; apply Ok_inj in E; subst; [constructor|].
    inversion B; subst. apply Forall_app. split; [apply Forall_rev; assumption|]. constructor; [apply with_cmd_in; auto|constructor].
Qed.
Definition olines_in (ls : list oline) : Prop := Forall (fun l => wls_in (ol_words l)) ls.
Lemma firstn_in {A} (P : A -> Prop) n l : Forall P l -> Forall P (firstn n l).
Proof. intros H. rewrite <- (firstn_skipn n l) in H. apply Forall_app in H. apply H. Qed.
Lemma skipn_in {A} (P : A -> Prop) n l : Forall P l -> Forall P (skipn n l).
Proof. intros H. rewrite <- (firstn_skipn n l) in H. apply Forall_app in H. apply H. Qed.
Lemma lines_ragged_in fs brs : forall prev ls, Forall frag_in fs -> lines_ragged prev brs fs = Ok ls -> olines_in ls.
Proof.
  induction brs as [|br r IH]; intros prev ls H E; cbn [lines_ragged] in E; [apply Ok_inj in E; subst; constructor|].
  apply bind_ok in E as (ws & EW & E). apply bind_ok in E as (l & EL & E). apply Ok_inj in E. subst.
  constructor; [|eapply IH; eauto]. cbn. eapply line_words_in; [|exact EW]. apply firstn_in, skipn_in, H.
Qed.
Lemma lay_in frags boxes tol P q ls : Forall frag_in frags -> lay frags boxes true tol P q = Ok ls -> olines_in ls.
Proof.
  unfold lay, into_lines. intros H E. apply bind_ok in E as (brs & _ & E). apply bind_ok in E as (l & EL & E).
  apply lines_ragged_in in EL; [|exact H]. apply Ok_inj in E. subst. exact EL.
Qed.
Lemma pyslice_in {A} (P : A -> Prop) l a b : Forall P l -> Forall P (pyslice l a b).
Proof. intros H. unfold pyslice. apply firstn_in, skipn_in, H. Qed.
Lemma lines_per_column_in fuel : forall ls counts prev j x, olines_in ls -> lines_per_column fuel ls counts prev j = Ok x ->
  Forall olines_in x.
Proof.
  induction fuel as [|fuel IH]; intros ls counts prev j x H E; [discriminate|]. cbn [lines_per_column] in E.
  assert (S := pyslice_in _ ls prev (counts j) H). destruct (pyslice ls prev (counts j)) as [|l0 l]; [apply Ok_inj in E; subst; constructor|].
  apply rmap_inv in E as (y & E & ->). constructor; [exact S|]. eapply IH; [exact H|exact E].
Qed.
Lemma repair_in frags boxes tol P fuel : Forall frag_in frags -> forall groups q x, Forall olines_in groups ->
  repair frags boxes true tol P fuel groups q = Ok x -> Forall olines_in x.
Proof.
  intros H. induction fuel as [|fuel IH]; intros groups q x GR E; [discriminate|]. cbn [repair] in E.
  destruct (rev groups) as [|last [|prev rr]]; [discriminate|apply Ok_inj in E; subst; exact GR|].
  destruct (_ && _ && _); [|apply Ok_inj in E; subst; exact GR].
  apply bind_ok in E as (ls & EL & E). apply lay_in in EL; [|exact H]. apply bind_ok in E as (g' & EG & E).
  apply lines_per_column_in in EG; [|exact EL]. destruct (rev g') as [|last' r'].
  - eapply IH; eauto.
  - destruct (_ && _); [apply Ok_inj in E; subst; exact GR|eapply IH; eauto].
Qed.
Lemma opt_shape_in fuel ws cols ae lead av tol P x : wls_in ws ->
  opt_shape fuel ws cols ae lead av true tol P = Ok x -> Forall olines_in x.
Proof.
  unfold opt_shape. intros W E. apply bind_ok in E as ([frags boxes] & EB & E).
  assert (H : Forall frag_in frags).
  { unfold into_boxes in EB. apply rmap_inv in EB as (l & EB & EQ). injection EQ as -> _.
    apply words_boxes_in in EB; [|exact W]. clear -EB. induction EB; constructor; auto. }
  destruct (neqb lead n0); [discriminate|].
  match type of E with (let (_, _) := ?c in _) = _ => destruct c as [pre q] eqn:EPQ end.
  assert (PRE : Forall olines_in pre).
  { destruct (_ =? 0)%Z in EPQ; injection EPQ as <- _; repeat constructor. }
  destruct boxes as [|b0 bx].
  - apply Ok_inj in E. subst. apply Forall_app. split; [exact PRE|]. repeat constructor.
  - apply bind_ok in E as (ls & EL & E). apply lay_in in EL; [|exact H].
    apply bind_ok in E as ([[pre' q'] ls'] & EX & E).
    assert (X : Forall olines_in pre' /\ olines_in ls').
    { destruct (_ && _ && _ && _ && _) in EX.
      - apply bind_ok in EX as (l2 & E2 & EX). apply lay_in in E2; [|exact H]. apply Ok_inj in EX. injection EX as <- _ <-.
        split; [|exact E2]. apply Forall_app. split; [exact PRE|]. repeat constructor.
      - apply Ok_inj in EX. injection EX as <- _ <-. auto. }
    destruct X as [P' L']. apply bind_ok in E as (g & EG & E). apply lines_per_column_in in EG; [|exact L'].
    apply bind_ok in E as (g2 & EG2 & E). apply Ok_inj in E. subst. apply Forall_app. split; [exact P'|].
    destruct av; [eapply repair_in; [exact H|exact EG|exact EG2]|apply Ok_inj in EG2; subst; exact EG].
Qed.

(** ** Operators *)
Definition item_in (i : titem) : Prop := match i with ISlug s => slug_in s | ISpace t st => st_in st /\ tail_in (Some t) end.
Definition op_in (o : op) : Prop :=
  match o with
  | OTf _ z => GP z | OTJ l => Forall item_in l | Org c | OrgD c | ORG c => rgb_in c
  | OTd x y | OTD x y | Om x y | Ol x y => GP x /\ GP y | OTL l => GP l
  | Oc _ _ _ _ _ _ | Ore _ _ _ _ => False
  | _ => True
  end.
Definition ops_in (l : list op) : Prop := Forall op_in l.
Lemma ops_in_app a b : ops_in (a ++ b) <-> ops_in a /\ ops_in b.
Proof. apply Forall_app. Qed.
Fixpoint cmd_ops_in (c : command) : cmd_in c -> ops_in ((cmd_ops c)).
Proof.
  destruct c as [|f z|v|c|h|l]; intros C; try constructor; try exact C; try constructor.
  apply chain_in in C. cbn [cmd_ops]. induction l as [|x l IH]; [constructor|]. inversion C; subst.
  cbn [flat_map]. apply ops_in_app. split; [apply cmd_ops_in; assumption|apply IH; assumption].
Qed.
Definition items_in (l : list titem) : Prop := Forall item_in l.
Lemma items_in_snoc l i : items_in l -> item_in i -> items_in (l ++ [i]).
Proof. intros A B. apply Forall_app. split; [exact A|]. constructor; [exact B|constructor]. Qed.
Definition out_in (x : list op * list titem) : Prop := ops_in (fst x) /\ items_in (snd x).
Lemma segs_line_in segs : forall ln, Forall (fun p => slug_in (fst p) /\ cmd_in (snd p)) segs -> items_in ln ->
  out_in (segs_into_line segs ln).
Proof.
  induction segs as [|[s c] r IH]; intros ln H L; [split; [constructor|exact L]|]. cbn [segs_into_line]. inversion H as [|? ? [X C] H']; subst.
  specialize (IH [] H' (Forall_nil _)). destruct (segs_into_line r []) as [ops ln']. destruct IH as [IH1 IH2]. cbn [fst snd] in *.
  split; [|exact IH2]. constructor; [apply (items_in_snoc ln (ISlug s) L X)|]. apply ops_in_app. split; [apply cmd_ops_in, C|exact IH1].
Qed.
Lemma box_line_in b ln : box_in b -> items_in ln -> out_in (box_into_line b ln).
Proof.
  destruct b as [s|segs st]; intros H L; [split; [constructor|apply (items_in_snoc ln (ISlug s) L H)]|]. apply segs_line_in; [apply H|exact L].
Qed.
Lemma boxes_line_in l : forall ln, Forall box_in l -> items_in ln -> out_in (boxes_into_line l ln).
Proof.
  induction l as [|b r IH]; intros ln H L; [split; [constructor|exact L]|]. cbn [boxes_into_line]. inversion H; subst.
  assert (B := box_line_in b ln ltac:(assumption) L). destruct (box_into_line b ln) as [o1 ln1]. destruct B as [B1 B2].
  specialize (IH ln1 ltac:(assumption) B2). destruct (boxes_into_line r ln1) as [o2 ln2]. destruct IH as [I1 I2]. cbn [fst snd] in *.
  split; [|exact I2]. apply ops_in_app. auto.
Qed.
Lemma into_line_in w : forall ln, wl_in w -> items_in ln -> out_in (into_line w ln).
Proof.
  induction w as [b|x|w IH c]; intros ln H L; cbn [into_line].
  - apply box_line_in; [exact H|exact L].
  - unfold word_into_line. destruct H as (H & S & T). assert (B := boxes_line_in (w_boxes x) ln H L).
    destruct (boxes_into_line (w_boxes x) ln) as [o l2]. destruct B as [B1 B2]. split; [exact B1|]. cbn [snd] in *.
    destruct (w_tail x) as [t|]; [|exact B2]. apply (items_in_snoc l2 (ISpace t (w_state x)) B2 (conj S T)).
  - destruct H as [H C]. specialize (IH ln H L). destruct (into_line w ln) as [o l2]. destruct IH as [I1 I2]. cbn [fst snd] in *.
    split; [|constructor]. apply ops_in_app. split; [exact I1|]. constructor; [exact I2|apply (cmd_ops_in c C)].
Qed.
Lemma words_line_in l : forall ln, wls_in l -> items_in ln -> out_in (words_into_line l ln).
Proof.
  induction l as [|w r IH]; intros ln H L; [split; [constructor|exact L]|]. cbn [words_into_line]. inversion H; subst.
  assert (B := into_line_in w ln ltac:(assumption) L). destruct (into_line w ln) as [o1 ln1]. destruct B as [B1 B2].
  specialize (IH ln1 ltac:(assumption) B2). destruct (words_into_line r ln1) as [o2 ln2]. destruct IH as [I1 I2]. cbn [fst snd] in *.
  split; [|exact I2]. apply ops_in_app. auto.
Qed.
Definition tline_in (l : tline) : Prop := cmd_in (tl_cmd l) /\ wls_in (tl_words l).
Lemma tline_ops_in l : tline_in l -> ops_in (tline_ops l).
Proof.
  intros [C W]. unfold tline_ops, line_ops. apply ops_in_app. split; [apply cmd_ops_in, C|].
  assert (B := words_line_in (tl_words l) [] W (Forall_nil _)). destruct (words_into_line (tl_words l) []) as [o ln]. destruct B as [B1 B2].
  apply ops_in_app. split; [exact B1|]. constructor; [exact B2|constructor].
Qed.
Lemma render_left_in x y st width ls lead : GP x -> GP y -> GP lead -> (forall s, st = Some s -> st_in s) -> Forall tline_in ls ->
  ops_in (render_text x y st width ls lead ALeft).
Proof.
  intros X Y LD S L. unfold render_text. constructor; [exact I|]. constructor; [split; assumption|]. apply ops_in_app. split.
  { destruct st as [s|]; [|constructor]. destruct (S s eq_refl). constructor; [assumption|]. constructor; [assumption|constructor]. }
  apply ops_in_app. split; [|constructor; [exact I|constructor]]. cbn [render_lines].
  unfold render_left. constructor; [exact LD|].
  induction L as [|l ls H L IH]; [constructor|]. cbn [flat_map]. apply ops_in_app. split; [|exact IH].
  constructor; [exact I|apply (tline_ops_in l H)].
Qed.

(** ** Shapes, columns *)
Definition shape_in (s : shaped) : Prop := match s with SText ls lead a _ => Forall tline_in ls /\ GP lead /\ a = ALeft | SRule _ _ _ _ => False end.
Lemma text_words_in ls : Forall tline_in ls -> wls_in (text_words ls).
Proof. intros H. unfold text_words. induction H as [|l ls [_ H] _ IH]; [constructor|]. cbn. apply Forall_app. auto. Qed.
Lemma sh_ops_in s pos width : GP (px pos) -> GP (py pos) -> shape_in s -> ops_in ((sh_ops s pos width)).
Proof.
  destruct s as [ls lead a h|p q c h]; intros X Y H; [|destruct H]. destruct H as (H & LD & ->). cbn [sh_ops]. apply render_left_in; auto.
  intros s E. assert (W := text_words_in ls H). unfold text_pre_state in E. destruct (text_words ls) as [|w r]; [discriminate|].
  injection E as <-. inversion W; subst. apply wl_state_in. assumption.
Qed.
Definition col_in (c : colfill) : Prop := Forall (fun p => shape_in (snd p)) (cf_blocks c).
Lemma cf_add_in c s : col_in c -> shape_in s -> col_in (cf_add c s).
Proof. intros C S. unfold col_in. cbn. apply Forall_app. split; [exact C|]. constructor; [exact S|constructor]. Qed.
Lemma cf_ops_in c : Forall (fun p => GP (px (fst p)) /\ GP (py (fst p))) (cf_blocks c) -> col_in c -> ops_in ((cf_ops c)).
Proof.
  unfold col_in, cf_ops. intros P C. induction C as [|[pos s] r H C IH]; [constructor|]. cbn [flat_map]. inversion P as [|? ? [X Y] P']; subst.
  apply ops_in_app. split; [apply sh_ops_in; assumption|auto].
Qed.
Definition cols_in (cs : nat -> colfill) : Prop := forall i, col_in (cs i).
Lemma scons_in c cs : col_in c -> cols_in cs -> cols_in (scons c cs).
Proof. intros C H [|i]; [exact C|apply H]. Qed.
Lemma shape_chunks_in fuel p ws cols ae lead x : p_align p = ALeft -> wls_in ws -> shape fuel p ws cols ae lead = Ok x ->
  Forall (Forall tline_in) x.
Proof.
  unfold shape. intros LA W E. rewrite LA in E. destruct (p_optimal p) as [[tol P]|].
  - apply rmap_inv in E as (y & E & ->). apply opt_shape_in in E; [|exact W]. clear -E. induction E as [|l r H _ IH]; [constructor|].
    cbn [map]. constructor; [|exact IH]. unfold olines_in in H. induction H; constructor; auto. split; [exact I|assumption].
  - apply rmap_inv in E as (y & E & ->). apply ff_shape_in in E; [|exact W]. clear -E. induction E as [|l r H _ IH]; [constructor|].
    cbn [map]. constructor; [|exact IH]. unfold lines_in in H. induction H; constructor; auto. split; [exact I|assumption].
Qed.
Lemma add_chunks_in lead chunks : forall cs, cols_in cs -> GP lead -> Forall (Forall tline_in) chunks ->
  Forall col_in (add_chunks cs (map (chunk lead ALeft) chunks)).
Proof.
  induction chunks as [|c r IH]; intros cs C LD H; [constructor|]. inversion H; subst. cbn [map add_chunks].
  constructor; [apply cf_add_in; [apply C|repeat split; assumption]|]. apply IH; [intros i; apply C|assumption..].
Qed.
Lemma states_after_in chunks : forall st, st_in st -> Forall (Forall tline_in) chunks -> st_in (states_after chunks st).
Proof.
  unfold states_after. induction chunks as [|c r IH]; intros st S H; [exact S|]. inversion H; subst. cbn [fold_left].
  apply IH; [|assumption]. unfold text_end_state. assert (W := text_words_in c ltac:(assumption)). apply Forall_rev in W.
  destruct (rev (text_words c)); [exact S|]. inversion W; subst. apply wl_state_in. assumption.
Qed.
Lemma para_loop_in fuel p gs : p_align p = ALeft -> ntruthy (p_indent p) = false -> forall cs st lead out, GP lead -> Forall psg_in gs -> cols_in cs -> st_in st ->
  para_loop fuel p gs cs st lead = Ok out -> Forall col_in out.
Proof.
  intros LA NI. induction gs as [|g r IH]; intros cs st lead out LD G' C S E; cbn [para_loop] in E.
  { apply Ok_inj in E. subst. constructor; [apply C|constructor]. }
  inversion G' as [|? ? G1 G2]; subst. apply bind_ok in E as ([[done st'] ex] & EF & E).
  assert (X : Forall col_in done /\ st_in st').
  { unfold fill_paragraph in EF. apply bind_ok in EF as ([[cmd ws] ex'] & EW & EF). apply into_words_in in EW as [CM W]; [|exact G1|exact S].
    apply bind_ok in EF as (ws' & EI & EF). apply (indent_first_none _ _ _ NI) in EI. subst ws'.
    apply bind_ok in EF as (chunks & ES & EF). apply shape_chunks_in in ES; [|exact LA|exact W]. rewrite LA in EF.
    apply Ok_inj in EF. injection EF as <- <- _. split; [apply add_chunks_in; assumption|].
    apply states_after_in; [apply apply_in; assumption|exact ES]. }
  destruct X as [D S']. apply Forall_rev in D. destruct (rev done) as [|col filled]; [discriminate|]. inversion D; subst.
  assert (FR : Forall col_in (rev filled)) by (apply Forall_rev; assumption).
  destruct ex.
  - apply bind_ok in E as (out' & EO & E). apply Ok_inj in E. subst. apply Forall_app. split; [exact FR|].
    eapply IH; [exact LD|exact G2| |exact S'|exact EO]. apply scons_in; [assumption|]. intros i; apply C.
  - apply Ok_inj in E. subst. apply Forall_app. split; [exact FR|]. constructor; [assumption|constructor].
Qed.
End F.
