(** * WordProofs: syllables, parsing *)
From Verif Require Import Base Num Fonts State TextSpec StateProofs Words WordsSpec Parse.
Open Scope nat_scope.

Section Proofs.
Context {NUM : Num} {ENV : Env NUM}.

(** ** coherence: every fragment is measured in the state it will be shown in *)
Fixpoint coh_segs (l : list (slug * command)) (s : state) : Prop :=
  match l with
  | [] => True
  | (x, c) :: r => sl_state x = s /\ coh_segs r (apply c s)
  end.
Definition end_segs (l : list (slug * command)) (s : state) : state := apply_all (map snd l) s.
Definition coh_box (b : box) (s : state) : Prop :=
  match b with
  | BSlug x => sl_state x = s
  | BMixed l st => l <> [] /\ coh_segs l s /\ st = end_segs l s
  end.
Fixpoint coh_boxes (l : list box) (s : state) : Prop :=
  match l with [] => True | b :: r => coh_box b s /\ coh_boxes r (box_state b) end.
Fixpoint end_boxes (l : list box) (s : state) : state :=
  match l with [] => s | b :: r => end_boxes r (box_state b) end.
Definition coh_word (w : word) (s : state) : Prop :=
  coh_boxes (w_boxes w) s /\ w_state w = end_boxes (w_boxes w) s.
Fixpoint coh (w : wordlike) (s : state) : Prop :=
  match w with WBox b => coh_box b s | WWord w => coh_word w s | WCmd w _ => coh w s end.
Fixpoint coh_all (l : list wordlike) (s : state) : Prop :=
  match l with [] => True | w :: r => coh w s /\ coh_all r (wl_state w) end.
Definition end_all (l : list wordlike) (s : state) : state :=
  match rev l with w :: _ => wl_state w | [] => s end.

Lemma coh_segs_exec l s : coh_segs l s -> exec_segs l s = (measured_segs l, end_segs l s).
Proof.
  revert s; induction l as [|[x c] l IH]; intros s H; cbn in *; auto.
  destruct H as [<- H]. rewrite (IH _ H). reflexivity.
Qed.
Lemma coh_box_exec b s : coh_box b s -> exec_box b s = (measured_box b, box_state b).
Proof.
  destruct b as [x|l st]; cbn.
  - intros <-. reflexivity.
  - intros (_ & H & ->). apply coh_segs_exec, H.
Qed.
Lemma coh_boxes_exec l s :
  coh_boxes l s -> exec_boxes l s = (flat_map measured_box l, end_boxes l s).
Proof.
  revert s; induction l as [|b l IH]; intros s H; cbn in *; auto.
  destruct H as [H1 H2]. rewrite (coh_box_exec _ _ H1), (IH _ H2). reflexivity.
Qed.
Lemma coh_exec w s : coh w s -> exec w s = (measured w, wl_state w).
Proof.
  revert s; induction w as [b|w|w IH c]; intros s H; cbn in *.
  - apply coh_box_exec, H.
  - destruct H as [H1 H2]. unfold exec_word, measured_word.
    rewrite (coh_boxes_exec _ _ H1), H2. reflexivity.
  - rewrite (IH _ H). reflexivity.
Qed.
Lemma coh_all_exec l s : coh_all l s -> exec_all l s = (measured_all l, end_all l s).
Proof.
  revert s; induction l as [|w l IH]; intros s H; cbn in *; auto.
  destruct H as [H1 H2]. rewrite (coh_exec _ _ H1), (IH _ H2). f_equal.
  unfold end_all. cbn. destruct (rev l); reflexivity.
Qed.
Lemma coh_all_app a b s : coh_all (a ++ b) s <-> coh_all a s /\ coh_all b (end_all a s).
Proof.
  revert s; induction a as [|w a IH]; intros s; cbn.
  - unfold end_all; cbn. tauto.
  - rewrite IH. unfold end_all; cbn. destruct (rev a) eqn:E; cbn; tauto.
Qed.
Lemma end_all_app a b s : end_all (a ++ b) s = end_all b (end_all a s).
Proof. unfold end_all. rewrite rev_app_distr. destruct (rev b); reflexivity. Qed.
Lemma end_all_cons w b s : end_all (w :: b) s = end_all b (wl_state w).
Proof. apply (end_all_app [w] b s). Qed.
Lemma measured_all_app a b : measured_all (a ++ b) = measured_all a ++ measured_all b.
Proof. unfold measured_all. apply flat_map_app. Qed.
Lemma measured_with_cmd w c : measured (with_cmd w c) = measured w.
Proof. destruct c; reflexivity. Qed.
Lemma coh_with_cmd w c s : coh (with_cmd w c) s <-> coh w s.
Proof. destruct c; reflexivity. Qed.
Lemma state_with_cmd w c : wl_state (with_cmd w c) = apply c (wl_state w).
Proof. destruct c; reflexivity. Qed.

(** ** strings *)
Lemma take_while_app p s a b : take_while p s = (a, b) -> s = a ++ b.
Proof.
  revert a b; induction s as [|c s IH]; cbn; intros a b E.
  - injection E as <- <-. reflexivity.
  - destruct (p c); [|injection E as <- <-; reflexivity].
    destruct (take_while p s) as [x y]. injection E as <- <-. cbn. f_equal; auto.
Qed.
Lemma take_while_all p s a b : take_while p s = (a, b) -> Forall (fun c => p c = true) a.
Proof.
  revert a b; induction s as [|c s IH]; cbn; intros a b E.
  - injection E as <- <-. constructor.
  - destruct (p c) eqn:P; [|injection E as <- <-; constructor].
    destruct (take_while p s) as [x y]. injection E as <- <-. constructor; auto. eapply IH; eauto.
Qed.
Lemma take_while_stop p s a b : take_while p s = (a, b) ->
  match b with [] => True | c :: _ => p c = false end.
Proof.
  revert a b; induction s as [|c s IH]; cbn; intros a b E.
  - injection E as <- <-. exact I.
  - destruct (p c) eqn:P; [|injection E as <- <-; assumption].
    destruct (take_while p s) as [x y]. injection E as <- <-. eapply IH; eauto.
Qed.
Lemma str_last_app (a b : str) : b <> [] -> str_last (a ++ b) = str_last b.
Proof.
  intros H. unfold str_last. destruct (exists_last H) as (x & c & ->).
  rewrite app_assoc, !last_last. reflexivity.
Qed.

(** ** syllables *)
Lemma runs_text fuel : forall s l rest, runs fuel s = (l, rest) ->
  s = flat_map (fun p => fst p ++ snd p) l ++ rest.
Proof.
  induction fuel as [|fuel IH]; cbn; intros s l rest E.
  - injection E as <- <-. reflexivity.
  - destruct (take_while (fun c => negb (is_wordchar c)) s) as [gap r] eqn:E1.
    destruct (take_while is_wordchar r) as [w r'] eqn:E2.
    destruct w as [|c w]; [injection E as <- <-; reflexivity|].
    destruct (runs fuel r') as [l' rest'] eqn:E3. injection E as <- <-.
    rewrite (take_while_app _ _ _ _ E1), (take_while_app _ _ _ _ E2), (IH _ _ _ E3).
    cbn. rewrite <- !app_assoc. reflexivity.
Qed.
Lemma runs_nonempty fuel : forall s l rest, runs fuel s = (l, rest) ->
  Forall (fun p => snd p <> []) l.
Proof.
  induction fuel as [|fuel IH]; cbn; intros s l rest E.
  - injection E as <- <-. constructor.
  - destruct (take_while (fun c => negb (is_wordchar c)) s) as [gap r].
    destruct (take_while is_wordchar r) as [w r'].
    destruct w as [|c w]; [injection E as <- <-; constructor|].
    destruct (runs fuel r') as [l' rest'] eqn:E3. injection E as <- <-.
    constructor; [cbn; congruence|eauto].
Qed.
Lemma concat_removelast {A} (l : list (list A)) d :
  l <> [] -> concat (removelast l) ++ List.last l d = concat l.
Proof.
  intros H. rewrite (app_removelast_last d H) at 3. rewrite concat_app. cbn.
  rewrite app_nil_r. reflexivity.
Qed.
Lemma Forall_removelast {A} (P : A -> Prop) l : Forall P l -> Forall P (removelast l).
Proof.
  intros H. destruct l as [|x l]; [exact H|].
  assert (N : x :: l <> []) by congruence.
  rewrite (app_removelast_last x N) in H. apply Forall_app in H. tauto.
Qed.
Lemma Forall_last {A} (P : A -> Prop) l d : Forall P l -> l <> [] -> P (List.last l d).
Proof.
  intros H N. rewrite (app_removelast_last d N) in H. apply Forall_app in H.
  destruct H as [_ H]. inversion H; auto.
Qed.
Lemma syllables_spec hy : splits hy -> forall l leftover rest,
  Forall (fun p => snd p <> []) l ->
  exists parts, syllables_of hy leftover l rest = Ok parts
    /\ concat parts = leftover ++ flat_map (fun p => fst p ++ snd p) l ++ rest
    /\ Forall (fun p => p <> []) parts.
Proof.
  intros HY. induction l as [|[gap w] l IH]; intros leftover rest HF; cbn [syllables_of flat_map].
  - cbn [app]. destruct (leftover ++ rest) as [|c t] eqn:E.
    + exists []. cbn. repeat split; auto.
    + exists [c :: t]. cbn. rewrite app_nil_r. repeat split; auto.
      constructor; auto. congruence.
  - inversion HF as [|? ? HW HF']; subst; cbn in HW.
    destruct (HY w HW) as [HC HN].
    destruct (hy w) as [|p ps] eqn:EH; [cbn in HC; congruence|].
    set (buf := ((leftover ++ gap) ++ p) :: ps).
    assert (HNB : Forall (fun p => p <> []) buf).
    { inversion HN; subst. constructor; auto. intros C. apply app_eq_nil in C. tauto. }
    assert (HB : buf <> []) by (unfold buf; congruence).
    destruct (IH (List.last buf []) rest HF') as (out & E & C & N).
    cbv zeta. fold buf. rewrite E. cbn [bind]. eexists; split; [reflexivity|]. split.
    + rewrite concat_app, C, app_assoc, (concat_removelast buf [] HB).
      unfold buf. cbn [concat]. cbn in HC. rewrite <- HC. cbn. rewrite <- !app_assoc. reflexivity.
    + apply Forall_app; split; [apply Forall_removelast, HNB|exact N].
Qed.
Lemma into_syllables_spec hy s : splits hy ->
  exists parts, into_syllables s hy = Ok parts /\ concat parts = s /\ Forall (fun p => p <> []) parts.
Proof.
  intros HY. unfold into_syllables. destruct (runs (S (List.length s)) s) as [l rest] eqn:E.
  destruct (syllables_spec hy HY l [] rest (runs_nonempty _ _ _ _ E)) as (p & E1 & E2 & E3).
  exists p. repeat split; auto. rewrite E2. symmetry. apply (runs_text _ _ _ _ E).
Qed.
Lemma into_syllables_never s : into_syllables s (fun w => [w]) = Ok (match s with [] => [] | _ => [s] end).
Proof.
  unfold into_syllables. destruct (runs (S (List.length s)) s) as [l rest] eqn:E.
  apply runs_text in E. subst s.
  enough (H : forall lo, syllables_of (fun w => [w]) lo l rest =
     Ok (match lo ++ flat_map (fun p => fst p ++ snd p) l ++ rest with [] => [] | t => [t] end))
    by (rewrite (H []); cbn [app]; destruct (_ ++ rest); reflexivity).
  induction l as [|[g w] l IH]; intros lo; cbn.
  - destruct (lo ++ rest); reflexivity.
  - rewrite IH. cbn. f_equal. rewrite <- !app_assoc. reflexivity.
Qed.

(** ** words *)
Lemma slugs_new_spec parts st : Forall (fun p => p <> []) parts -> forall prev,
  exists bs, slugs_new parts st prev = Ok bs
    /\ flat_map measured_box bs = styled_str (concat parts) st
    /\ coh_boxes bs st /\ end_boxes bs st = st.
Proof.
  induction parts as [|p parts IH]; intros HF prev.
  - exists []. cbn. auto.
  - inversion HF; subst. destruct p as [|c p]; [congruence|].
    destruct (IH ltac:(assumption) (Some (str_last (c :: p)))) as (bs & E & M & C & N).
    cbn [slugs_new]. rewrite E. cbn [bind]. eexists; split; [reflexivity|].
    split; [|split; [split; [reflexivity|exact C]|exact N]].
    cbn [flat_map]. rewrite M. cbn [concat]. unfold styled_str. rewrite map_app. reflexivity.
Qed.
Lemma tspace_parse_spec s st prev s' t : tspace_parse s st prev = (s', t) ->
  s = s' ++ (match t with Some _ => [32%N] | None => [] end).
Proof.
  unfold tspace_parse. destruct s as [|c s]; [intros E; injection E as <- <-; reflexivity|].
  destruct (str_last (c :: s) =? 32)%N eqn:E; intros H; injection H as <- <-.
  - apply N.eqb_eq in E.
    assert (N : c :: s <> []) by congruence.
    pose proof (app_removelast_last 0%N N) as H. unfold str_last in E.
    etransitivity; [exact H|]. f_equal. f_equal. exact E.
  - rewrite app_nil_r. reflexivity.
Qed.
Lemma word_new_spec s st prev : all_split ->
  exists w, word_new s st prev = Ok w /\ measured_word w = styled_str s st
    /\ coh_word w st /\ w_state w = st.
Proof.
  intros HY. unfold word_new. destruct (tspace_parse s st prev) as [s' t] eqn:E.
  apply tspace_parse_spec in E. subst s.
  destruct (into_syllables_spec (hyphenator (st_hyphens st)) s' (HY _)) as (parts & E1 & E2 & E3).
  rewrite E1. cbn [bind].
  destruct (slugs_new_spec parts st E3 prev) as (bs & E4 & M & C & N). rewrite E4. cbn [bind].
  eexists; split; [reflexivity|]. unfold measured_word, coh_word. cbn.
  rewrite M, E2, N. unfold styled_str. rewrite map_app. repeat split; auto.
  f_equal. destruct t; reflexivity.
Qed.

(** ** the word regex *)
Lemma split_word_app t w r : split_word t = Some (w, r) ->
  t = w ++ r /\ w <> [] /\ ends_at_break w = true.
Proof.
  revert w r; induction t as [|c t IH]; cbn; intros w r E; [discriminate|].
  destruct (is_space c) eqn:S1.
  - destruct (take_while is_space t) as [sp r'] eqn:T. injection E as <- <-.
    apply N.eqb_eq in S1. subst c.
    split; [cbn; f_equal; eapply take_while_app; eauto|]. split; [congruence|].
    assert (HF : Forall (fun c => is_space c = true) (32%N :: sp)).
    { constructor; auto. eapply take_while_all; eauto. }
    unfold ends_at_break. destruct (rev (32%N :: sp)) as [|x y] eqn:R.
    + apply (f_equal (@List.length char)) in R. rewrite rev_length in R. discriminate.
    + apply Forall_rev in HF. rewrite R in HF. inversion HF as [|? ? HX]; subst.
      unfold is_space in HX. rewrite HX. reflexivity.
  - destruct (break_char c) eqn:B.
    + injection E as <- <-. repeat split; [congruence|]. cbn.
      unfold break_char in B. destruct (c =? 32)%N; auto.
    + destruct (split_word t) as [[w' r']|]; cbn in E; [|discriminate].
      injection E as <- <-. destruct (IH _ _ eq_refl) as (-> & N & H).
      repeat split; [congruence|]. unfold ends_at_break in *. cbn.
      destruct (rev w') as [|x y] eqn:R; cbn; [discriminate|exact H].
Qed.
Lemma ends_at_break_app a b : b <> [] -> ends_at_break (a ++ b) = ends_at_break b.
Proof.
  intros N. unfold ends_at_break. rewrite rev_app_distr.
  destruct (rev b) as [|x y] eqn:R; [|reflexivity].
  apply (f_equal (@rev char)) in R. rewrite rev_involutive in R. cbn in R. congruence.
Qed.
Lemma split_word_none t : split_word t = None -> ends_at_break t = false.
Proof.
  induction t as [|c t IH]; cbn; intros E; [reflexivity|].
  destruct (is_space c) eqn:S1; [destruct (take_while is_space t); discriminate|].
  destruct (break_char c) eqn:B; [discriminate|].
  destruct (split_word t) as [[? ?]|] eqn:T; cbn in E; [discriminate|].
  specialize (IH eq_refl). destruct t as [|d t].
  - unfold ends_at_break; cbn. unfold is_space in S1. unfold break_char in B. rewrite S1.
    cbn. destruct ((c =? 45) || (c =? 8203))%N; auto.
  - change (c :: d :: t) with ([c] ++ d :: t). rewrite ends_at_break_app; [exact IH|congruence].
Qed.

Definition words_of (l : list word) : list wordlike := map WWord l.
Lemma styled_str_app a b s : styled_str (a ++ b) s = styled_str a s ++ styled_str b s.
Proof. apply map_app. Qed.

Lemma simple_words_spec fuel t st prev : all_split -> List.length t < fuel -> t <> [] ->
  exists ws last, simple_words fuel t st prev = Ok (ws, last)
    /\ coh_all (words_of ws) st /\ end_all (words_of ws) st = st
    /\ match last with
       | inl r => measured_all (words_of ws) ++ styled_str r st = styled_str t st
                  /\ r <> [] /\ split_word r = None
                  /\ exists t0, t = t0 ++ r /\ measured_all (words_of ws) = styled_str t0 st
       | inr w => measured_all (words_of ws) ++ measured_word w = styled_str t st
                  /\ coh_word w st /\ w_state w = st /\ ends_at_break t = true
       end.
Proof.
  intros HY. revert t prev; induction fuel as [|fuel IH]; intros t prev HL HN; [lia|].
  cbn [simple_words]. destruct (split_word t) as [[w r]|] eqn:E.
  - destruct (split_word_app _ _ _ E) as (-> & NW & HB).
    destruct (word_new_spec w st prev HY) as (x & E1 & M & C & S1). rewrite E1. cbn [bind].
    destruct r as [|c r].
    + exists [], (inr x). split; [reflexivity|]. cbn. rewrite app_nil_r, M. auto 10.
    + destruct (IH (c :: r) (Some (str_last w))) as (ws & last & E2 & C2 & N2 & R).
      { rewrite app_length in HL. destruct w; [congruence|]. cbn in *. lia. }
      { congruence. }
      rewrite E2. cbn [bind fst snd].
      exists (x :: ws), last. split; [reflexivity|].
      cbn [words_of map coh_all coh wl_state]. rewrite S1. split; [auto|].
      split; [change (WWord x :: map WWord ws) with ([WWord x] ++ words_of ws);
              rewrite end_all_app; cbn; rewrite S1; exact N2|].
      cbn [measured_all flat_map measured]. rewrite M. rewrite styled_str_app.
      destruct last as [r'|w'].
      * destruct R as (R1 & R2 & R3 & t0 & R4 & R5). rewrite <- R1, app_assoc.
        repeat split; auto. exists (w ++ t0). rewrite styled_str_app. split.
        -- rewrite R4. symmetry. apply app_assoc_reverse.
        -- unfold words_of in R5. rewrite <- R5. reflexivity.
      * destruct R as (R1 & R2 & R3 & R4). rewrite <- R1, app_assoc. repeat split; auto; try apply R2.
        rewrite ends_at_break_app; [exact R4|congruence].
  - exists [], (inl t). cbn. repeat split; auto. exists []. auto.
Qed.

(** ** completing a word over several passages *)
Lemma take_parts_spec it parts next : take_parts it = (parts, next) ->
  match next with
  | None => parts = it /\ Forall (fun p => split_word (snd p) = None) it
  | Some (r, it') =>
      exists a c w, parts = a ++ [(c, w)] /\ it = a ++ (c, w ++ r) :: it'
        /\ Forall (fun p => split_word (snd p) = None) a /\ w <> [] /\ ends_at_break w = true
  end.
Proof.
  revert parts next; induction it as [|[cmd t] it IH]; cbn; intros parts next E.
  - injection E as <- <-. split; auto.
  - destruct (split_word t) as [[w r]|] eqn:S1.
    + injection E as <- <-. destruct (split_word_app _ _ _ S1) as (-> & N & B).
      exists [], cmd, w. auto.
    + destruct (take_parts it) as [ps x] eqn:T. injection E as <- <-.
      specialize (IH _ _ eq_refl). destruct x as [[r it']|].
      * destruct IH as (a & c & w & -> & -> & F & N & B). exists ((cmd, t) :: a), c, w.
        repeat split; auto.
      * destruct IH as [-> F]. split; auto.
Qed.

Lemma measured_slug_new t st prev : measured_slug (slug_new t st prev) = styled_str t st.
Proof. reflexivity. Qed.

Lemma segments_measured parts : forall seg prev st cmds l p st',
  segments parts seg prev st cmds = (l, p, st') ->
  measured_segs l = measured_slug seg ++ styled parts st
  /\ st' = end_state parts st /\ l <> [].
Proof.
  induction parts as [|[cmd t] parts IH]; cbn [segments]; intros seg prev st cmds l p st' E.
  - injection E as <- <- <-. cbn. repeat split; congruence.
  - destruct t as [|c t].
    + destruct (IH _ _ _ _ _ _ _ E) as (M & -> & N). cbn. auto.
    + destruct (segments parts _ _ _ []) as [[l' p'] s'] eqn:E1.
      injection E as <- <- <-. destruct (IH _ _ _ _ _ _ _ E1) as (M & -> & N).
      cbn [measured_segs flat_map fst styled]. split; [|split; [reflexivity|congruence]].
      unfold measured_segs in M. rewrite M. reflexivity.
Qed.
(** squashing each collected list of commands *)
Definition sq_ok (l : list command) : Prop := forall s, apply (squash l) s = apply_all l s.
Fixpoint parts_ok (parts : list (command * str)) (cmds : list command) : Prop :=
  match parts with
  | [] => sq_ok cmds
  | (cmd, []) :: r => parts_ok r (cmds ++ [cmd])
  | (cmd, _) :: r => sq_ok (cmds ++ [cmd]) /\ parts_ok r []
  end.
Lemma segments_coh parts : forall seg prev st cmds l p st' s0,
  segments parts seg prev st cmds = (l, p, st') ->
  sl_state seg = s0 -> st = apply_all cmds s0 -> parts_ok parts cmds ->
  coh_segs l s0 /\ end_segs l s0 = st'.
Proof.
  induction parts as [|[cmd t] parts IH]; cbn [segments]; intros seg prev st cmds l p st' s0 E HS HA HP.
  - injection E as <- <- <-. cbn in *. split; auto. unfold end_segs; cbn. subst st. apply HP.
  - destruct t as [|c t].
    + apply (IH _ _ _ _ _ _ _ s0 E HS); [|exact HP].
      rewrite apply_all_app, <- HA. reflexivity.
    + destruct HP as [HP1 HP2].
      destruct (segments parts _ _ _ []) as [[l' p'] s'] eqn:E1.
      injection E as <- <- <-.
      assert (Q : apply (squash (cmds ++ [cmd])) s0 = apply cmd st).
      { rewrite HP1, apply_all_app, <- HA. reflexivity. }
      destruct (IH _ _ _ _ _ _ _ (apply cmd st) E1) as [C N]; auto.
      cbn [coh_segs]. rewrite Q. split; auto. unfold end_segs. cbn. rewrite Q. exact N.
Qed.

Lemma cut_parts_app a c w : cut_parts (a ++ [(c, w)]) = a ++ [(c, cut_space w)].
Proof. unfold cut_parts. rewrite rev_app_distr. cbn. rewrite rev_involutive. reflexivity. Qed.
Lemma cut_space_spec w : w = cut_space w ++ (if ends_with_space w then [32%N] else []).
Proof.
  unfold cut_space, ends_with_space. destruct w as [|c w]; auto.
  destruct (is_space (str_last (c :: w))) eqn:E; [|rewrite app_nil_r; reflexivity].
  apply N.eqb_eq in E. unfold str_last in E. rewrite <- E.
  apply app_removelast_last. congruence.
Qed.
Lemma styled_app a b s : styled (a ++ b) s = styled a s ++ styled b (end_state a s).
Proof.
  revert s; induction a as [|[c t] a IH]; intros s; cbn; auto.
  rewrite IH, app_assoc. reflexivity.
Qed.
Lemma end_state_app a b s : end_state (a ++ b) s = end_state b (end_state a s).
Proof. unfold end_state. rewrite map_app. apply apply_all_app. Qed.

(** a stretch of passages of which only the last may have text *)
Lemma runs_ok_sub a ps b : runs_ok (a ++ ps ++ b) -> runs_ok ps.
Proof.
  intros H x run y -> HF. apply (H (a ++ x) run (y ++ b)); [|exact HF].
  rewrite <- !app_assoc. reflexivity.
Qed.
Lemma runs_ok_tail x ps : runs_ok (x :: ps) -> runs_ok ps.
Proof. intros H. apply (runs_ok_sub [x] ps []). rewrite app_nil_r. exact H. Qed.
Lemma runs_parts_ok parts : forall pre,
  Forall (fun p : passage => snd p = []) pre -> runs_ok (pre ++ parts) ->
  parts_ok parts (map fst pre).
Proof.
  induction parts as [|[cmd t] parts IH]; intros pre HF HR; cbn [parts_ok].
  - intros s. apply (HR [] pre []); [rewrite app_nil_r; reflexivity|].
    apply Forall_removelast, HF.
  - destruct t as [|c t].
    + change [cmd] with (map fst [(cmd, @nil char)]). rewrite <- map_app.
      apply IH; [apply Forall_app; auto|]. rewrite <- app_assoc. exact HR.
    + split.
      * intros s. change [cmd] with (map fst [(cmd, c :: t)]). rewrite <- map_app.
        apply (HR [] (pre ++ [(cmd, c :: t)]) parts); [rewrite <- app_assoc; reflexivity|].
        rewrite removelast_last. exact HF.
      * apply (IH []); [constructor|].
        apply (runs_ok_sub (pre ++ [(cmd, c :: t)]) parts []). rewrite app_nil_r, <- app_assoc. exact HR.
Qed.
(** shortening the text of the last passage does not change [parts_ok] *)
Lemma parts_ok_cut a c w w' cmds :
  parts_ok (a ++ [(c, w)]) cmds -> parts_ok (a ++ [(c, w')]) cmds.
Proof.
  revert cmds; induction a as [|[d t] a IH]; intros cmds; cbn [app parts_ok].
  - assert (N : sq_ok []) by (intros s; reflexivity).
    destruct w, w'; intuition.
  - destruct t; [apply IH|]. intros [H1 H2]. split; auto.
Qed.

Lemma complete_word_spec it head st : all_split -> head <> [] ->
  exists w next, complete_word it head st = Ok (w, next)
    /\ match next with
       | None => measured_word w = styled_str head st ++ styled it st
                 /\ w_state w = end_state it st /\ (runs_ok it -> coh_word w st)
       | Some (r, it') =>
           exists a c t, it = a ++ (c, t ++ r) :: it' /\ t <> [] /\ ends_at_break t = true
             /\ measured_word w = styled_str head st ++ styled (a ++ [(c, t)]) st
             /\ w_state w = end_state (a ++ [(c, t)]) st
             /\ (runs_ok it -> coh_word w st)
       end.
Proof.
  intros HY HN. unfold complete_word. destruct (take_parts it) as [parts next] eqn:T.
  apply take_parts_spec in T.
  destruct parts as [|p0 parts0].
  - destruct next as [[r it']|].
    { destruct T as (a & c & w & C & _). destruct a; discriminate. }
    destruct T as [<- _]. destruct (word_new_spec head st None HY) as (w & E & M & C & S1).
    rewrite E. cbn [bind]. exists w, None. split; [reflexivity|]. cbn. rewrite app_nil_r. auto.
  - set (parts := p0 :: parts0) in *.
    destruct next as [[r it']|].
    + destruct T as (a & c & t & EP & -> & F & N & B).
      rewrite EP, cut_parts_app, last_last. cbn [snd].
      destruct (segments (a ++ [(c, cut_space t)]) _ _ _ _) as [[l p] st'] eqn:E.
      destruct (segments_measured _ _ _ _ _ _ _ _ E) as (M & ES & NL).
      eexists _, (Some (r, it')). split; [reflexivity|]. cbv beta iota.
      exists a, c, t. repeat split; auto.
      * unfold measured_word. cbn [w_boxes flat_map measured_box w_tail w_state].
        rewrite M, app_nil_r, <- app_assoc. f_equal.
        rewrite !styled_app, <- app_assoc. f_equal.
        cbn [styled]. rewrite !app_nil_r. subst st'.
        transitivity (styled_str (cut_space t ++ (if ends_with_space t then [32%N] else []))
                                 (apply c (end_state a st)));
          [|rewrite <- cut_space_spec; reflexivity].
        rewrite styled_str_app. f_equal.
        rewrite !end_state_app. destruct (ends_with_space t); reflexivity.
      * cbn [w_state]. subst st'. rewrite !end_state_app. reflexivity.
      * cbn [w_boxes coh_boxes coh_box box_state].
        destruct (segments_coh _ _ _ _ _ _ _ _ st E eq_refl eq_refl) as [C1 C2]; auto.
        apply (parts_ok_cut a c (t ++ r)). apply (runs_parts_ok _ []); [constructor|].
        apply (runs_ok_sub [] _ it'). cbn [app]. rewrite <- app_assoc. exact H.
      * cbn [w_boxes coh_boxes coh_box box_state].
        destruct (segments_coh _ _ _ _ _ _ _ _ st E eq_refl eq_refl) as [C1 C2]; auto.
        apply (parts_ok_cut a c (t ++ r)). apply (runs_parts_ok _ []); [constructor|].
        apply (runs_ok_sub [] _ it'). cbn [app]. rewrite <- app_assoc. exact H.
    + destruct T as [EP F].
      destruct (segments parts _ _ _ _) as [[l p] st'] eqn:E.
      destruct (segments_measured _ _ _ _ _ _ _ _ E) as (M & ES & NL).
      eexists _, None. split; [reflexivity|]. cbv beta iota.
      rewrite EP in *. split; [|split; [exact ES|]].
      * unfold measured_word. cbn. rewrite M, !app_nil_r. reflexivity.
      * intros HR.
        destruct (segments_coh _ _ _ _ _ _ _ _ st E eq_refl eq_refl) as [C1 C2].
        { apply (runs_parts_ok _ []); [constructor|exact HR]. }
        unfold coh_word. cbn. auto.
Qed.

(** ** the parser: what it keeps.  [kept ps p]: [p] is the part of [ps] consumed *)
Lemma text_of_app a b : text_of (a ++ b) = text_of a ++ text_of b.
Proof. unfold text_of. rewrite map_app, concat_app. reflexivity. Qed.

Lemma parse_loop_spec fuel : all_split -> forall it st c0 t,
  List.length it < fuel -> t <> [] ->
  let ps := (c0, t) :: it in
  exists ws ex a b, parse_loop fuel it st t = Ok (ws, ex)
    /\ ps = a ++ b
    /\ measured_all ws = styled_str t st ++ styled (tl a) st
    /\ end_all ws st = end_state (tl a) st
    /\ (runs_ok it -> coh_all ws st)
    /\ a <> []
    /\ (if ex then b = []
        else exists a' c, a = a' ++ [(c, [])] /\ ends_at_break (text_of a') = true).
Proof.
  intros HY. induction fuel as [|fuel IH]; intros it st c0 t HL HN; [lia|].
  cbv zeta.
  cbn [parse_loop]. destruct t as [|ch t0] eqn:Et; [congruence|]. rewrite <- Et in *. clear ch t0 Et.
  set (ps := (c0, t) :: it).
  destruct (simple_words_spec (S (List.length t)) t st None HY ltac:(lia) HN)
    as (ws & last & E & C & N & R).
  rewrite E. cbn [bind]. fold (words_of ws).
  (* the end of the loop body *)
  assert (FIN : forall w st1 it1 pre,
    ps = pre ++ it1 -> pre <> [] -> ends_at_break (text_of pre) = true ->
    List.length it1 < S fuel ->
    measured_all (words_of ws) ++ measured_word w = styled_str t st ++ styled (tl pre) st ->
    w_state w = st1 -> st1 = end_state (tl pre) st ->
    (runs_ok it -> coh_word w st) ->
    exists ws' ex a b,
      match it1 with
      | [] => Ok (words_of ws ++ [WWord w], true)
      | (cmd, t1) :: it' =>
          do y <- parse_loop fuel it' (apply cmd st1) t1;
          Ok (words_of ws ++ with_cmd (WWord w) cmd :: fst y, snd y)
      end = Ok (ws', ex)
    /\ ps = a ++ b
    /\ measured_all ws' = styled_str t st ++ styled (tl a) st
    /\ end_all ws' st = end_state (tl a) st
    /\ (runs_ok it -> coh_all ws' st)
    /\ a <> []
    /\ (if ex then b = []
        else exists a' c, a = a' ++ [(c, [])] /\ ends_at_break (text_of a') = true)).
  { intros w st1 it1 pre EP NP BP L1 EM ES EE HC.
    assert (TL : forall x, tl (pre ++ x) = tl pre ++ x) by (destruct pre; [congruence|reflexivity]).
    destruct it1 as [|[cmd t1] it'].
    - exists (words_of ws ++ [WWord w]), true, pre, []. split; [reflexivity|].
      rewrite measured_all_app, end_all_app. cbn. rewrite app_nil_r.
      rewrite app_nil_r in EP. rewrite !app_nil_r.
      split; [exact EP|]. split; [exact EM|].
      split; [unfold end_all; cbn; congruence|].
      split; [intros HR; apply coh_all_app; rewrite N; cbn; auto|auto].
    - cbn in L1. destruct t1 as [|ch1 t1].
      + (* an empty passage: the loop stops *)
        assert (EL : parse_loop fuel it' (apply cmd st1) [] = Ok ([], false)).
        { destruct fuel; [lia|]. reflexivity. }
        rewrite EL. cbn [bind fst snd].
        exists (words_of ws ++ [with_cmd (WWord w) cmd]), false, (pre ++ [(cmd, [])]), it'.
        split; [reflexivity|]. rewrite measured_all_app, TL, styled_app, end_state_app.
        cbn. rewrite measured_with_cmd, !app_nil_r. cbn [measured].
        split; [rewrite <- app_assoc; exact EP|]. split; [exact EM|].
        split; [rewrite end_all_app; unfold end_all at 1; cbn; rewrite state_with_cmd; cbn;
                rewrite ES, EE; reflexivity|].
        split; [|split; [destruct pre; cbn; congruence|exists pre, cmd; auto]].
        intros HR. apply coh_all_app. rewrite N. cbn. rewrite coh_with_cmd. cbn. auto.
      + destruct (IH it' (apply cmd st1) cmd (ch1 :: t1) ltac:(lia) ltac:(congruence))
          as (ws' & ex & a & b & E2 & EA & M2 & S2 & C2 & NA & X2).
        rewrite E2. cbn [bind fst snd].
        exists (words_of ws ++ with_cmd (WWord w) cmd :: ws'), ex, (pre ++ a), b.
        split; [reflexivity|].
        destruct a as [|[ca ta] a]; [congruence|]. cbn in EA. injection EA as <- <- EA.
        rewrite TL.
        split; [rewrite <- app_assoc; cbn; rewrite <- EA; exact EP|].
        split.
        { rewrite measured_all_app. cbn [measured_all flat_map]. rewrite measured_with_cmd.
          cbn [measured]. rewrite app_assoc, EM, styled_app. cbn [styled].
          unfold measured_all in M2. rewrite M2. cbn [tl]. rewrite <- app_assoc, <- EE. reflexivity. }
        split.
        { rewrite end_all_app, end_all_cons, state_with_cmd. cbn [wl_state]. rewrite ES, S2.
          rewrite end_state_app. cbn. rewrite <- EE. reflexivity. }
        split.
        { intros HR. apply coh_all_app. rewrite N. split; auto. cbn. rewrite coh_with_cmd, state_with_cmd.
          cbn. rewrite ES. split; auto. apply C2.
          assert (exists z, it = z ++ it') as [z ->].
          { destruct pre as [|p pre]; [congruence|]. injection EP as _ ->.
            exists (pre ++ [(cmd, ch1 :: t1)]). rewrite <- app_assoc. reflexivity. }
          apply (runs_ok_sub z it' []). rewrite app_nil_r. exact HR. }
        split; [destruct pre; cbn; congruence|].
        destruct ex; [exact X2|].
        destruct X2 as (a' & c & EA' & B'). exists (pre ++ a'), c.
        rewrite EA', app_assoc. split; auto. rewrite text_of_app.
        destruct (text_of a') as [|q q'] eqn:Q; [discriminate|].
        rewrite ends_at_break_app; [exact B'|congruence]. }
  destruct last as [head|w].
  - destruct R as (R1 & R2 & R3 & tb & R4 & R5).
    destruct (complete_word_spec it head st HY R2) as (w & next & E2 & X). rewrite E2. cbn [bind].
    destruct next as [[r it']|].
    + destruct X as (a & c & t1 & EI & NT & BT & M & S1 & CW).
      assert (EM : measured_all (words_of ws) ++ measured_word w
                   = styled_str t st ++ styled (a ++ [(c, t1)]) st).
      { rewrite M, app_assoc, R1. reflexivity. }
      destruct r as [|ch1 r].
      * rewrite app_nil_r in EI.
        apply (FIN w (w_state w) it' ((c0, t) :: a ++ [(c, t1)])); auto.
        -- unfold ps. rewrite EI. cbn. rewrite <- app_assoc. reflexivity.
        -- congruence.
        -- change ((c0, t) :: a ++ [(c, t1)]) with (((c0, t) :: a) ++ [(c, t1)]).
           rewrite text_of_app. cbn. rewrite app_nil_r.
           apply (eq_trans (ends_at_break_app _ _ NT) BT).
        -- rewrite EI in HL. rewrite app_length in HL. cbn in HL. lia.
      * destruct (IH it' (w_state w) c (ch1 :: r)) as (ws' & ex & a2 & b & E3 & EA & M3 & S3 & C3 & NA & X3).
        { rewrite EI in HL. rewrite app_length in HL. cbn in HL. lia. }
        { congruence. }
        rewrite E3. cbn [bind fst snd].
        destruct a2 as [|[ca ta] a2]; [congruence|]. cbn in EA. injection EA as <- <- EA.
        exists (words_of ws ++ WWord w :: ws'), ex, ((c0, t) :: a ++ (c, t1 ++ ch1 :: r) :: a2), b.
        split; [reflexivity|].
        split; [unfold ps; rewrite EI, EA; cbn; rewrite <- app_assoc; reflexivity|].
        cbn [tl] in *.
        assert (ST : w_state w = apply c (end_state a st)).
        { rewrite S1, end_state_app. reflexivity. }
        split.
        { rewrite measured_all_app. cbn [measured_all flat_map measured].
          unfold measured_all in M3. rewrite M3, app_assoc, EM.
          rewrite !styled_app. cbn [styled]. rewrite !app_nil_r, styled_str_app, <- !app_assoc.
          rewrite <- ST. reflexivity. }
        split.
        { rewrite end_all_app, end_all_cons. cbn [wl_state]. rewrite S3, end_state_app. cbn.
          rewrite <- ST. reflexivity. }
        split.
        { intros HR. apply coh_all_app. rewrite N. split; auto. cbn. split; auto. apply C3.
          rewrite EI in HR. apply (runs_ok_sub (a ++ [(c, t1 ++ ch1 :: r)]) it' []).
          rewrite app_nil_r, <- app_assoc. exact HR. }
        split; [congruence|].
        destruct ex; [exact X3|]. destruct X3 as (a' & c' & EA' & B').
        destruct a' as [|[ca' ta'] a']; [cbn in B'; discriminate|].
        cbn in EA'. injection EA' as <- <- EA'. subst a2.
        exists ((c0, t) :: a ++ (c, t1 ++ ch1 :: r) :: a'), c'. split.
        { cbn. rewrite <- app_assoc. reflexivity. }
        { change ((c0, t) :: a ++ (c, t1 ++ ch1 :: r) :: a')
            with (((c0, t) :: a) ++ (c, t1 ++ ch1 :: r) :: a').
          rewrite text_of_app.
          assert (Q : text_of ((c, t1 ++ ch1 :: r) :: a') = t1 ++ text_of ((c, ch1 :: r) :: a')).
          { unfold text_of. cbn [map snd concat]. rewrite <- app_assoc. reflexivity. }
          rewrite Q, app_assoc.
          rewrite ends_at_break_app; [exact B'|]. unfold text_of; cbn. congruence. }
    + destruct X as (M & S1 & CW).
      exists (words_of ws ++ [WWord w]), true, ps, []. split; [reflexivity|].
      rewrite app_nil_r. cbn [tl ps]. rewrite measured_all_app. cbn. rewrite app_nil_r, M, app_assoc, R1.
      repeat split; auto.
      * rewrite end_all_app. unfold end_all; cbn. exact S1.
      * intros HR. apply coh_all_app. rewrite N. cbn. auto.
      * unfold ps; congruence.
  - destruct R as (R1 & R2 & R3 & R4).
    apply (FIN w st it [(c0, t)]); auto.
    + congruence.
    + cbn. rewrite app_nil_r. exact R4.
    + cbn. rewrite app_nil_r. exact R1.
Qed.

Lemma fold_commands_spec it : forall st pre c x st',
  Forall (fun p : passage => snd p = []) pre ->
  fold_commands it st (map fst pre) = (c, x, st') ->
  match x with
  | None => Forall (fun p : passage => snd p = []) it /\ st' = end_state it st
            /\ c = squash (map fst (pre ++ it))
  | Some (t, it') => exists a cmd, it = a ++ (cmd, t) :: it' /\ t <> []
       /\ Forall (fun p : passage => snd p = []) a
       /\ st' = end_state (a ++ [(cmd, t)]) st
       /\ c = squash (map fst (pre ++ a ++ [(cmd, t)]))
  end.
Proof.
  induction it as [|[cmd t] it IH]; cbn [fold_commands]; intros st pre c x st' HP E.
  - injection E as <- <- <-. rewrite app_nil_r. repeat split; auto.
  - destruct t as [|ch t].
    + change [cmd] with (map fst [(cmd, @nil char)]) in E. rewrite <- map_app in E.
      apply IH in E; [|apply Forall_app; auto].
      destruct x as [[t it']|].
      * destruct E as (a & cmd' & -> & N & F & -> & ->). exists ((cmd, []) :: a), cmd'.
        repeat split; auto. rewrite <- !app_assoc. reflexivity.
      * destruct E as (F & -> & ->). repeat split; auto. rewrite <- app_assoc. reflexivity.
    + injection E as <- <- <-. exists [], cmd. repeat split; auto; [congruence|].
      rewrite map_app. reflexivity.
Qed.
Lemma styled_empty ps s : Forall (fun p : passage => snd p = []) ps -> styled ps s = [].
Proof.
  revert s; induction ps as [|[c t] ps IH]; intros s H; auto. inversion H; subst; cbn in *. subst t.
  apply IH; auto.
Qed.
Lemma text_empty ps : Forall (fun p : passage => snd p = []) ps -> text_of ps = [].
Proof.
  induction ps as [|[c t] ps IH]; intros H; auto. inversion H; subst; cbn in *. subst t.
  apply IH; auto.
Qed.

Theorem into_words_spec ps st : all_split ->
  exists cmd ws ex a b, into_words ps st = Ok (cmd, ws, ex)
    /\ ps = a ++ b
    /\ measured_all ws = styled a st
    /\ (runs_ok ps -> end_all ws (apply cmd st) = end_state a st
                      /\ coh_all ws (apply cmd st))
    /\ (if ex then b = []
        else exists a' c, a = a' ++ [(c, [])] /\ ends_at_break (text_of a') = true).
Proof.
  intros HY. unfold into_words. destruct (fold_commands ps st []) as [[cmd x] st'] eqn:E.
  apply (fold_commands_spec ps st []) in E; [|constructor]. destruct x as [[t it]|].
  - destruct E as (a & c & -> & N & F & ES & EC).
    destruct (parse_loop_spec (S (List.length it)) HY it st' c t (Nat.lt_succ_diag_r _) N)
      as (ws & ex & a2 & b & E2 & EA & M & S2 & C2 & NA & X).
    rewrite E2. cbn [bind fst snd]. destruct a2 as [|[ca ta] a2]; [congruence|].
    cbn in EA. injection EA as <- <- EA.
    exists cmd, ws, ex, (a ++ (c, t) :: a2), b. split; [reflexivity|].
    split; [rewrite EA, <- app_assoc; reflexivity|].
    cbn [tl] in *.
    rewrite end_state_app in ES. cbn in ES.
    split.
    { rewrite M, styled_app, (styled_empty a) by assumption. cbn. rewrite ES. reflexivity. }
    split.
    { intros HR.
      assert (Q : apply cmd st = st').
      { rewrite EC. cbn [app]. rewrite (HR [] (a ++ [(c, t)]) it).
        - rewrite map_app, apply_all_app. rewrite ES. reflexivity.
        - rewrite <- app_assoc. reflexivity.
        - rewrite removelast_last. exact F. }
      rewrite Q, S2. split.
      - rewrite end_state_app. cbn. rewrite ES. reflexivity.
      - apply C2. apply (runs_ok_sub (a ++ [(c, t)]) it []). rewrite app_nil_r, <- app_assoc. exact HR. }
    destruct ex; [exact X|]. destruct X as (a' & c' & EA' & B').
    destruct a' as [|[ca' ta'] a']; [cbn in B'; discriminate|].
    cbn in EA'. injection EA' as <- <- EA'. subst a2.
    exists (a ++ (c, t) :: a'), c'. split; [rewrite <- app_assoc; reflexivity|].
    rewrite text_of_app, (text_empty a) by assumption. exact B'.
  - destruct E as (F & ES & EC).
    exists cmd, [], true, ps, []. split; [reflexivity|].
    rewrite app_nil_r, (styled_empty ps) by assumption. repeat split; auto.
    unfold end_all; cbn. rewrite EC. cbn [app]. rewrite (H [] ps []); auto.
    + rewrite app_nil_r; reflexivity.
    + apply Forall_removelast, F.
Qed.
End Proofs.
