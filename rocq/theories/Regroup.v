(** * Regroup: how a text is put together from strings and spans. *)
From Coq Require Import QArith Qcanon.
From Verif Require Import Base Gfmt Num Fonts State Style TextSpec StateProofs Words WordsSpec WordProofs WordOps Parse Render
  Firstfit KnuthPlass Optimum Common Draw Layout.
From Coq Require Import Lia.
Local Open Scope list_scope.
Open Scope nat_scope.

(** ** Spans that change nothing *)
(** [regrouped base c c']: within the style [base], [c'] is [c] with the contents of one of its spans, at any
    depth, in place of the span, whose style changes nothing where it stands *)
Inductive regrouped (base : @full QcNum) : list (@item QcNum) -> list (@item QcNum) -> Prop :=
| rg_here l st c r : full_or base st = base -> regrouped base (l ++ ISpan st c :: r) (l ++ c ++ r)
| rg_inside l st c c' r : regrouped (full_or base st) c c' -> regrouped base (l ++ ISpan st c :: r) (l ++ ISpan st c' :: r).
(** [cut c c']: [c'] is [c] with one of its strings, at any depth, cut in two *)
Inductive cut (a b : str) : list (@item QcNum) -> list (@item QcNum) -> Prop :=
| cut_here l r : cut a b (l ++ IStr (a ++ b) :: r) (l ++ IStr a :: IStr b :: r)
| cut_inside l st c c' r : cut a b c c' -> cut a b (l ++ ISpan st c :: r) (l ++ ISpan st c' :: r).

Lemma items_app (base : @full QcNum) l r todo : flatten_items base (l ++ r) todo =
  (fst (flatten_items base l todo) ++ fst (flatten_items base r (snd (flatten_items base l todo))),
   snd (flatten_items base r (snd (flatten_items base l todo)))).
Proof.
  revert todo. induction l as [|i l IH]; intros todo; cbn [app flatten_items fst snd].
  - destruct (flatten_items base r todo); reflexivity.
  - destruct (flatten_item base i todo) as [p1 t1]. rewrite IH. destruct (flatten_items base l t1) as [p2 t2]. cbn [fst snd]. rewrite app_assoc. reflexivity.
Qed.
Lemma items_cons (base : @full QcNum) i r todo : flatten_items base (i :: r) todo =
  (fst (flatten_item base i todo) ++ fst (flatten_items base r (snd (flatten_item base i todo))), snd (flatten_items base r (snd (flatten_item base i todo)))).
Proof. cbn [flatten_items]. destruct (flatten_item base i todo) as [p1 t1]. cbn [fst snd]. destruct (flatten_items base r t1); reflexivity. Qed.
Lemma typeface_refl t : typeface_eqb t t = true.
Proof. destruct t as [b|a b c d]; cbn [typeface_eqb]; [destruct b; reflexivity|]. rewrite !N.eqb_refl. reflexivity. Qed.
Lemma qeq_refl (x : Qc) : @neqb QcNum x x = true.
Proof. cbn [neqb QcNum]. unfold Qceqb. apply Qeq_bool_iff. reflexivity. Qed.
Lemma rgb_refl (c : @rgb QcNum) : rgb_eqb c c = true.
Proof. unfold rgb_eqb. rewrite !qeq_refl. reflexivity. Qed.
Lemma diff_self (f : @full QcNum) : full_diff f f = [].
Proof. unfold full_diff. rewrite !Bool.eqb_reflx, typeface_refl, !qeq_refl, rgb_refl, N.eqb_refl. reflexivity. Qed.
Lemma fb_none {A} (o : option A) d : fallback o d = d -> o = None \/ o = Some d.
Proof. destruct o; cbn [fallback]; [right; congruence|left; reflexivity]. Qed.
Lemma diff_nothing (base : @full QcNum) st : full_or base st = base -> style_diff st base = [].
Proof.
  intros E. assert (E1 := f_equal fs_font E). assert (E2 := f_equal fs_size E). assert (E3 := f_equal fs_bold E). assert (E4 := f_equal fs_italic E).
  assert (E5 := f_equal fs_color E). assert (E6 := f_equal fs_spacing E). assert (E7 := f_equal fs_hyphens E).
  cbn [full_or fs_font fs_size fs_bold fs_italic fs_color fs_spacing fs_hyphens] in *. clear E.
  apply fb_none in E1, E2, E3, E4, E5, E6, E7. unfold style_diff.
  destruct E1 as [-> | ->], E2 as [-> | ->], E3 as [-> | ->], E4 as [-> | ->], E5 as [-> | ->], E6 as [-> | ->], E7 as [-> | ->]; cbn [differs];
    rewrite ?Bool.eqb_reflx, ?typeface_refl, ?qeq_refl, ?rgb_refl, ?N.eqb_refl; reflexivity.
Qed.
Lemma regroup_items base c c' : regrouped base c c' -> forall todo, flatten_items base c todo = flatten_items base c' todo.
Proof.
  induction 1 as [base l st c r E|base l st c c' r _ IH]; intros todo.
  - rewrite !items_app, items_cons, flatten_item_span, E, (diff_nothing _ _ E), app_nil_r, diff_self.
    destruct (flatten_items base c (snd (flatten_items base l todo))) as [p t]. cbn [fst snd]. rewrite app_nil_r. reflexivity.
  - rewrite !items_app, !items_cons, !flatten_item_span, IH. reflexivity.
Qed.
Lemma regroup_flatten base st c c' : regrouped (full_or base st) c c' -> flatten base st c = flatten base st c' /\ flatten_fonts base st c = flatten_fonts base st c'.
Proof.
  intros R. unfold flatten, flatten_fonts, flatten_raw. rewrite !flatten_item_span, (regroup_items _ _ _ R). split; reflexivity.
Qed.

(** ** Strings cut between words *)
Section Cut.
Context {ENV : Env QcNum}.
Variable SPLIT : all_split.
Variable b : str.
Hypothesis NB : b <> [].
(** [x] ends where a line can be broken; [b] does not continue its spaces, and there is no kerning between *)
Definition clean (x : str) : Prop :=
  exists u c, x = u ++ [c] /\ (is_space c || break_char c)%bool = true /\ (is_space c && is_space (hd 0%N b))%bool = false
    /\ forall f, charkern f c (hd 0%N b) = 0%Qc.
Lemma clean_some x : clean x -> x <> [].
Proof. intros (u & c & -> & _). intros E. destruct u; discriminate. Qed.
Lemma clean_tail w r : clean (w ++ r) -> r <> [] -> clean r.
Proof.
  intros (u & c & E & H) NR. destruct (exists_last NR) as (r0 & d & ->). rewrite app_assoc in E. apply app_inj_tail in E as (E & <-).
  exists r0, d. auto.
Qed.
Lemma spaces_app x y sp r : take_while is_space x = (sp, r) -> (r = [] -> is_space (hd 0%N y) = false) -> take_while is_space (x ++ y) = (sp, r ++ y).
Proof.
  revert sp r. induction x as [|c x IH]; intros sp r E H; cbn [take_while app] in *.
  - injection E as <- <-. specialize (H eq_refl). destruct y as [|d y]; [reflexivity|]. cbn [take_while hd] in *. rewrite H. reflexivity.
  - destruct (is_space c).
    + destruct (take_while is_space x) as [s1 r1]. injection E as <- <-. rewrite (IH s1 r1 eq_refl H). reflexivity.
    + injection E as <- <-. reflexivity.
Qed.
Lemma split_both x : clean x -> exists w r, split_word x = Some (w, r) /\ split_word (x ++ b) = Some (w, r ++ b) /\ x = w ++ r.
Proof.
  induction x as [|c x IH]; intros C; [apply clean_some in C; congruence|]. cbn [split_word app].
  destruct (is_space c) eqn:SC.
  - destruct (take_while is_space x) as [sp r] eqn:T. rewrite (spaces_app x b sp r T).
    { do 2 eexists. split; [reflexivity|]. split; [reflexivity|]. cbn [app]. f_equal. apply take_while_app in T. exact T. }
    intros ->. assert (X := take_while_app _ _ _ _ T). assert (AL := take_while_all _ _ _ _ T). rewrite app_nil_r in X. subst sp.
    destruct C as (u & d & E & _ & SD & _). assert (Sd : is_space d = true).
    { destruct u as [|e u]; [injection E as -> ->; exact SC|]. injection E as <- ->. apply Forall_app in AL as (_ & AL). inversion AL; assumption. }
    rewrite Sd in SD. exact SD.
  - destruct (break_char c) eqn:BC; [do 2 eexists; split; [reflexivity|]; split; reflexivity|].
    assert (NX : x <> []).
    { intros ->. destruct C as (u & d & E & H & _). destruct u as [|e [|]]; try discriminate. injection E as <-. rewrite SC, BC in H. discriminate. }
    destruct (IH (clean_tail [c] x C NX)) as (w & r & -> & -> & ->). do 2 eexists. split; [reflexivity|]. split; reflexivity.
Qed.
Lemma kern_free f p s : s <> [] -> charkern f p (hd 0%N s) = 0%Qc -> font_kern f s (Some p) = font_kern f s None.
Proof.
  intros NS. unfold charkern, font_kern. destruct (kerntab f) as [t|]; [|reflexivity]. intros E. destruct s as [|c s]; [congruence|]. cbn [hd] in E.
  unfold kern. change (pairwise (p :: c :: s)) with ((p, c) :: pairwise (c :: s)). cbn [kern_from]. rewrite E. reflexivity.
Qed.
Lemma word_free s st p : s <> [] -> charkern (st_font st) p (hd 0%N s) = 0%Qc -> word_new s st (Some p) = word_new s st None.
Proof.
  intros NS K. unfold word_new, tspace_parse. destruct s as [|c s0] eqn:ES; [congruence|]. rewrite <- ES in *. clear ES.
  assert (SL : forall s', s' <> [] -> hd 0%N s' = hd 0%N s -> forall parts, into_syllables s' (hyphenator (st_hyphens st)) = Ok parts ->
    slugs_new parts st (Some p) = slugs_new parts st None).
  { intros s' N' H parts E. destruct (into_syllables_spec _ s' (SPLIT (st_hyphens st))) as (parts' & E' & CC & NE). rewrite E in E'. injection E' as <-.
    destruct parts as [|x xs]; [reflexivity|]. inversion NE as [|? ? N1 _]; subst. destruct x as [|d x]; [congruence|]. cbn [slugs_new].
    destruct (slugs_new xs st _); [|reflexivity]. cbn [bind]. unfold slug_new. rewrite kern_free; [reflexivity|discriminate|].
    cbn [hd]. cbn [concat app hd] in H. rewrite H. exact K. }
  destruct (str_last s =? 32)%N eqn:L.
  - destruct (removelast s) as [|d s'] eqn:R.
    + assert (ET : tspace_new st (Some p) = tspace_new st None).
      { unfold tspace_new. f_equal. assert (X : hd 0%N s = 32%N). { apply N.eqb_eq in L. destruct s as [|e [|]]; [congruence|exact L|discriminate]. }
        rewrite X in K. exact K. }
      rewrite ET. cbn. reflexivity.
    + assert (H : hd 0%N (d :: s') = hd 0%N s). { rewrite <- R. destruct s as [|e [|]]; [congruence|discriminate|reflexivity]. }
      destruct (into_syllables (d :: s') _) as [parts|] eqn:E; [|reflexivity]. cbn [bind]. rewrite (SL (d :: s') ltac:(discriminate) H parts E). reflexivity.
  - destruct (into_syllables s _) as [parts|] eqn:E; [|reflexivity]. cbn [bind]. rewrite (SL s NS eq_refl parts E). reflexivity.
Qed.
(** *** Words *)
Lemma sw_stable f : forall t st prev, List.length t < f -> simple_words (S f) t st prev = simple_words f t st prev.
Proof.
  induction f as [|f IH]; intros t st prev L; [lia|]. cbn [simple_words]. destruct (split_word t) as [[w r]|] eqn:E; [|reflexivity].
  destruct (split_word_app _ _ _ E) as (-> & NW & _). destruct (word_new w st prev) as [x|]; [|reflexivity]. cbn [bind].
  destruct r as [|c r]; [reflexivity|]. specialize (IH (c :: r) st (Some (str_last w))). cbn [simple_words] in IH. rewrite IH; [reflexivity|].
  rewrite app_length in L. destruct w; [congruence|]. cbn in *. lia.
Qed.
Lemma sw_fuel f t st prev : List.length t < f -> simple_words f t st prev = simple_words (S (List.length t)) t st prev.
Proof. intros L. induction f as [|f IH]; [lia|]. destruct (Nat.eq_dec f (List.length t)) as [->|N]; [reflexivity|]. rewrite sw_stable by lia. apply IH. lia. Qed.
Definition sw t st prev := simple_words (S (List.length t)) t st prev.
Lemma sw_free st p : charkern (st_font st) p (hd 0%N b) = 0%Qc -> sw b st (Some p) = sw b st None.
Proof.
  intros K. unfold sw. cbn [simple_words]. destruct (split_word b) as [[w r]|] eqn:E; [|reflexivity].
  destruct (split_word_app _ _ _ E) as (EB & NW & _). rewrite word_free; [reflexivity|exact NW|]. rewrite EB in K. destruct w; [congruence|exact K].
Qed.
Lemma sw_both st : forall n x prev, List.length x <= n -> clean x ->
  match sw x st prev with
  | Err e => sw (x ++ b) st prev = Err e
  | Ok (ws, inr w) => sw (x ++ b) st prev = do u <- sw b st None; Ok (ws ++ w :: fst u, snd u)
  | Ok (_, inl _) => False
  end.
Proof.
  remember (sw b st None) as SB eqn:ESB.
  induction n as [|n IH]; intros x prev L C; [apply clean_some in C; destruct x; [congruence|cbn in L; lia]|].
  destruct (split_both x C) as (w & r & E1 & E2 & EX). destruct (split_word_app _ _ _ E1) as (_ & NW & _).
  unfold sw. cbn [simple_words]. rewrite E1, E2. destruct (word_new w st prev) as [z|e]; cbn [bind]; [|reflexivity].
  destruct r as [|d r].
  - cbn [app]. destruct b as [|b0 b1] eqn:EB; [congruence|]. rewrite <- EB in *. rewrite sw_fuel by (rewrite app_length, EX, app_nil_r; destruct w; [congruence|cbn; lia]).
    change (simple_words (S (List.length b)) b st (Some (str_last w))) with (sw b st (Some (str_last w))). rewrite sw_free; [rewrite <- ESB; destruct SB; reflexivity|].
    destruct C as (u & c & EC & _ & _ & K). rewrite EX, app_nil_r in EC. subst w. unfold str_last. rewrite last_last. apply K.
  - assert (C' : clean (d :: r)). { rewrite EX in C. exact (clean_tail w (d :: r) C ltac:(discriminate)). }
    assert (LR : List.length (d :: r) < List.length x). { rewrite EX, app_length. destruct w; [congruence|cbn; lia]. }
    specialize (IH (d :: r) (Some (str_last w)) ltac:(lia) C'). cbn [app]. change (d :: r ++ b) with ((d :: r) ++ b).
    rewrite (sw_fuel (List.length x)) by exact LR. rewrite (sw_fuel (List.length (x ++ b))) by (rewrite !app_length; lia).
    unfold sw in IH. destruct (simple_words (S (List.length (d :: r))) (d :: r) st _) as [[ws [|l]]|e]; cbn [bind fst snd]; [contradiction| |].
    + rewrite IH. destruct SB as [[ws2 l2]|e]; cbn [bind fst snd]; reflexivity.
    + rewrite IH. reflexivity.
Qed.
(** *** Passages *)
Notation psg := (@passage QcNum).
Definition fin (rec : list psg -> @state QcNum -> str -> res (list (@wordlike QcNum) * bool)) (words : list (@wordlike QcNum)) (last : @word QcNum) (st : @state QcNum) (it : list psg) :=
  match it with
  | [] => Ok (words ++ [WWord last], true)
  | (cmd, t) :: it' => do y <- rec it' (apply cmd st) t; Ok (words ++ with_cmd (WWord last) cmd :: fst y, snd y)
  end.
Definition after rec (words : list (@wordlike QcNum)) (last : str + @word QcNum) (st : @state QcNum) (it : list psg) :=
  match last with
  | inr w => fin rec words w st it
  | inl head =>
      do y <- complete_word it head st;
      match snd y with
      | None => Ok (words ++ [WWord (fst y)], true)
      | Some ([], it') => fin rec words (fst y) (w_state (fst y)) it'
      | Some (r, it') => do z <- rec it' (w_state (fst y)) r; Ok (words ++ WWord (fst y) :: fst z, snd z)
      end
  end.
Definition body rec (it : list psg) (st : @state QcNum) (txt : str) :=
  match txt with
  | [] => Ok ([], false)
  | _ => do x <- sw txt st None; after rec (map WWord (fst x)) (snd x) st it
  end.
Lemma pl_S f it st txt : parse_loop (S f) it st txt = body (parse_loop f) it st txt.
Proof.
  cbn [parse_loop]. unfold body. destruct txt as [|c txt]; [reflexivity|]. unfold sw.
  destruct (simple_words _ (c :: txt) st None) as [[ws [h|w]]|e]; cbn [bind fst snd]; [|reflexivity|reflexivity].
  unfold after. destruct (complete_word it h st) as [[w [[[|d r] it']|]]|e]; reflexivity.
Qed.
Lemma take_shorter it : forall ps r it', take_parts it = (ps, Some (r, it')) -> List.length it' < List.length it.
Proof.
  induction it as [|[k t] it IH]; intros ps r it' E; cbn [take_parts] in E; [discriminate|].
  destruct (split_word t) as [[w r0]|]; [injection E as _ _ <-; cbn; lia|].
  destruct (take_parts it) as [ps1 x1] eqn:T. injection E as _ ->. specialize (IH _ _ _ eq_refl). cbn. lia.
Qed.
Lemma complete_next it h st w n : complete_word it h st = Ok (w, n) -> n = None \/ n = snd (take_parts it).
Proof.
  unfold complete_word. destruct (take_parts it) as [[|p ps] nx]; cbn [snd].
  - intros E. apply bind_ok in E as (y & _ & E). apply Ok_inj in E. injection E as _ <-. left; reflexivity.
  - destruct (segments _ _ _ _ _) as [[segs pv] s']. intros E. apply Ok_inj in E. injection E as _ <-. right; reflexivity.
Qed.
Lemma complete_shorter it h st w r it' : complete_word it h st = Ok (w, Some (r, it')) -> List.length it' < List.length it.
Proof.
  intros E. destruct (complete_next _ _ _ _ _ E) as [X|X]; [discriminate|]. destruct (take_parts it) as [ps nx] eqn:T. cbn [snd] in X. subst nx.
  exact (take_shorter _ _ _ _ T).
Qed.
Lemma body_ext rec rec' it st txt : (forall it' st' t', List.length it' < List.length it -> rec it' st' t' = rec' it' st' t') -> body rec it st txt = body rec' it st txt.
Proof.
  intros H. unfold body. destruct txt as [|c txt]; [reflexivity|]. destruct (sw _ _ _) as [[ws last]|e]; cbn [bind fst snd]; [|reflexivity].
  assert (F : forall words w st it', List.length it' <= List.length it -> fin rec words w st it' = fin rec' words w st it').
  { intros words w st' [|[k t] it'] L; cbn [fin]; [reflexivity|]. rewrite H; [reflexivity|]. cbn in L. lia. }
  destruct last as [h|w]; cbn [after]; [|apply F; lia]. destruct (complete_word it h st) as [[w [[r it']|]]|e] eqn:E; cbn [bind fst snd]; try reflexivity.
  assert (L := complete_shorter _ _ _ _ _ _ E). destruct r as [|d r]; [apply F; lia|]. rewrite H by exact L. reflexivity.
Qed.
Lemma pl_stable f : forall it st txt, List.length it < f -> parse_loop (S f) it st txt = parse_loop f it st txt.
Proof.
  induction f as [|f IH]; intros it st txt L; [lia|]. rewrite (pl_S (S f)), (pl_S f). apply body_ext. intros it' st' t' L'. apply IH. lia.
Qed.
Definition pl it st txt := parse_loop (S (List.length it)) it st txt.
Lemma pl_fuel f it st txt : List.length it < f -> parse_loop f it st txt = pl it st txt.
Proof. intros L. induction f as [|f IH]; [lia|]. destruct (Nat.eq_dec f (List.length it)) as [->|N]; [reflexivity|]. rewrite pl_stable by lia. apply IH. lia. Qed.
Lemma pl_eq it st txt : pl it st txt = body pl it st txt.
Proof. unfold pl at 1. rewrite pl_S. apply body_ext. intros it' st' t' L. apply pl_fuel. exact L. Qed.
(** a passage of a list is cut in two *)
Inductive pcut : list psg -> list psg -> Prop :=
| pcut_i l k x r : clean x -> pcut (l ++ (k, x ++ b) :: r) (l ++ (k, x) :: (NoOp, b) :: r).
(** the text being parsed and the passages after it *)
Definition pst (it : list psg) (txt : str) (it' : list psg) (txt' : str) : Prop :=
  (txt = txt' /\ pcut it it') \/ (clean txt' /\ txt = txt' ++ b /\ it' = (NoOp, b) :: it).
Lemma pcut_cons it it' : pcut it it' -> exists (k : @command QcNum) (t : str) (r : list psg) (k' : @command QcNum) (t' : str) (r' : list psg), it = @cons psg (k, t) r /\ it' = @cons psg (k', t') r' /\ k = k' /\ pst r t r' t'.
Proof.
  intros [l k x r C]. destruct l as [|[k0 t0] l]; cbn [app]; do 6 eexists; (split; [reflexivity|]); (split; [reflexivity|]); (split; [reflexivity|]).
  - right. auto.
  - left. split; [reflexivity|]. constructor; exact C.
Qed.
Lemma take_cut it it' : pcut it it' -> exists ps, ps <> [] /\
  ((take_parts it = (ps, None) /\ False)
   \/ exists r r' i i', take_parts it = (ps, Some (r, i)) /\ take_parts it' = (ps, Some (r', i'))
        /\ ((r = r' /\ pcut i i') \/ (r = r' ++ b /\ i' = (NoOp, b) :: i /\ (r' = [] \/ clean r')))).
Proof.
  intros [l k x r C]. induction l as [|[k0 t0] l (ps & NE & IH)].
  - destruct (split_both x C) as (w & q & E1 & E2 & EX). exists [(k, w)]. split; [discriminate|]. right.
    cbn [app take_parts]. rewrite E1, E2. do 4 eexists. split; [reflexivity|]. split; [reflexivity|]. right. split; [reflexivity|]. split; [reflexivity|].
    destruct q as [|d q]; [left; reflexivity|right]. rewrite EX in C. exact (clean_tail w _ C ltac:(discriminate)).
  - destruct IH as [(_ & [])|(q & q' & i & i' & T & T' & H)]. cbn [app take_parts]. destruct (split_word t0) as [[w q0]|].
    + exists [(k0, w)]. split; [discriminate|]. right. do 4 eexists. split; [reflexivity|]. split; [reflexivity|]. left. split; [reflexivity|]. constructor; exact C.
    + rewrite T, T'. exists ((k0, t0) :: ps). split; [discriminate|]. right. do 4 eexists. split; [reflexivity|]. split; [reflexivity|]. exact H.
Qed.
Lemma b_match {A} (f : A) (g : str -> A) : match b with [] => f | _ => g b end = g b.
Proof. destruct b; [congruence|reflexivity]. Qed.
Lemma after_words rec (ws1 : list (@wordlike QcNum)) w ws2 last st it :
  after rec (ws1 ++ WWord w :: ws2) last st it = do y <- after rec ws2 last st it; Ok (ws1 ++ WWord w :: fst y, snd y).
Proof.
  assert (F : forall v st it, fin rec (ws1 ++ WWord w :: ws2) v st it = do y <- fin rec ws2 v st it; Ok (ws1 ++ WWord w :: fst y, snd y)).
  { intros v s [|[k t] i]; cbn [fin]; [cbn [bind fst snd]; rewrite <- app_assoc; reflexivity|].
    destruct (rec i (apply k s) t) as [y|e]; cbn [bind fst snd]; [rewrite <- app_assoc|]; reflexivity. }
  destruct last as [h|v]; cbn [after]; [|apply F]. destruct (complete_word it h st) as [[v [[[|d r] i]|]]|e]; cbn [bind fst snd]; try reflexivity.
  - apply F.
  - destruct (rec i (w_state v) (d :: r)) as [z|e]; cbn [bind fst snd]; [rewrite <- app_assoc|]; reflexivity.
  - rewrite <- app_assoc. reflexivity.
Qed.
Lemma parse_cut : forall n it txt it' txt' st, List.length it <= n -> pst it txt it' txt' -> pl it st txt = pl it' st txt'.
Proof.
  induction n as [n IH] using lt_wf_ind. intros it txt it' txt' st L P. rewrite !pl_eq.
  destruct P as [(-> & P)|(C & -> & ->)].
  - assert (F : forall words w st i i', List.length i <= List.length it -> pcut i i' -> fin pl words w st i = fin pl words w st i').
    { intros words w s i i' LI PC. destruct (pcut_cons _ _ PC) as (k & t & r & k' & t' & r' & -> & -> & <- & PP). cbn [fin].
      assert (LR : List.length r < n) by (eapply Nat.lt_le_trans; [|exact L]; exact LI).
      rewrite (IH (List.length r) LR r t r' t' _ (le_n _) PP). reflexivity. }
    unfold body. destruct txt' as [|c txt]; [reflexivity|]. destruct (sw _ _ _) as [[ws [h|w]]|e]; cbn [bind fst snd after]; [|apply F; [lia|exact P]|reflexivity].
    destruct (take_cut _ _ P) as (ps & NE & [(_ & [])|(q & q' & i & i' & T & T' & H)]). assert (LT := take_shorter _ _ _ _ T).
    unfold complete_word. rewrite T, T'. destruct ps as [|p0 ps]; [congruence|]. destruct (segments _ _ _ _ _) as [[segs pv] s']. cbn [bind fst snd].
    destruct H as [(<- & PC)|(-> & -> & H)].
    + destruct q as [|d q]; [apply F; [lia|exact PC]|]. rewrite (IH (List.length i) ltac:(lia) i (d :: q) i' (d :: q) _ (le_n _)); [reflexivity|]. left. split; [reflexivity|exact PC].
    + destruct q' as [|d q'].
      * cbn [app fin apply with_cmd]. destruct b as [|b0 b1]; [congruence|]. reflexivity.
      * destruct H as [H|H]; [discriminate|]. cbn [app]. change (d :: q' ++ b) with ((d :: q') ++ b).
        rewrite (IH (List.length i) ltac:(lia) i ((d :: q') ++ b) ((NoOp, b) :: i) (d :: q') _ (le_n _)); [reflexivity|]. right. auto.
  - unfold body. assert (NX := clean_some _ C). assert (SB := sw_both st _ txt' None (le_n _) C).
    destruct txt' as [|c x]; [congruence|]. cbn [app]. change (c :: x ++ b) with ((c :: x) ++ b).
    destruct (sw (c :: x) st None) as [[ws [h|w]]|e]; cbn [bind fst snd]; [contradiction| |rewrite SB; reflexivity].
    rewrite SB. cbn [after fin apply with_cmd]. rewrite pl_eq. unfold body. destruct b as [|b0 b1] eqn:EB; [congruence|]. rewrite <- EB in *.
    destruct (sw b st None) as [[ws2 l2]|e]; cbn [bind fst snd]; [|reflexivity]. rewrite map_app. cbn [map]. apply after_words.
Qed.
Lemma fold_cut : forall l k x r st buf, clean x ->
  let '(c, n, s) := fold_commands (l ++ (k, x ++ b) :: r) st buf in
  let '(c', n', s') := fold_commands (l ++ (k, x) :: (NoOp, b) :: r) st buf in
  c = c' /\ s = s' /\ exists t i t' i', n = Some (t, i) /\ n' = Some (t', i') /\ pst i t i' t'.
Proof.
  induction l as [|[k0 t0] l IH]; intros k x r st buf C; cbn [app fold_commands].
  - assert (NX := clean_some _ C). destruct x as [|d x]; [congruence|]. cbn [app]. split; [reflexivity|]. split; [reflexivity|].
    do 4 eexists. split; [reflexivity|]. split; [reflexivity|]. right. split; [exact C|]. split; reflexivity.
  - destruct t0 as [|d t0]; [apply IH; exact C|]. split; [reflexivity|]. split; [reflexivity|].
    do 4 eexists. split; [reflexivity|]. split; [reflexivity|]. left. split; [reflexivity|]. constructor; exact C.
Qed.
Lemma words_cut g g' st : pcut g g' -> into_words g st = into_words g' st.
Proof.
  intros [l k x r C]. unfold into_words. assert (F := fold_cut l k x r st [] C).
  destruct (fold_commands (l ++ (k, x ++ b) :: r) st []) as [[c n] s]. destruct (fold_commands (l ++ (k, x) :: (NoOp, b) :: r) st []) as [[c' n'] s'].
  destruct F as (<- & <- & t & i & t' & i' & -> & -> & P).
  change (parse_loop (S (List.length i)) i s t) with (pl i s t). change (parse_loop (S (List.length i')) i' s t') with (pl i' s t').
  rewrite (parse_cut _ _ _ _ _ s (le_n _) P). reflexivity.
Qed.
End Cut.
