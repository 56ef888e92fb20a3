(** * LineKernProofs: kerning through the operations on words, and first-fit lines. *)
From Coq Require Import QArith Qcanon Sorted.
From Verif Require Import Base Gfmt FontSpec FontProofs Num Fonts State TextSpec StateProofs
  Words WordsSpec WordProofs WordOps Parse Render RenderSpec RenderProofs WordWidth KernSpec KernProofs LineSpec Firstfit FirstfitProofs KnuthPlass KPSpec Optimum OptimumProofs.
From Verif Require Import LineKernSpec.
Open Scope nat_scope.

Section Kern.
Context {ENV : Env QcNum}.
Notation adjs := (list (schar * Qc)).
Definition zero_first (l : adjs) : adjs := match l with (c, _) :: r => (c, 0%Qc) :: r | [] => [] end.
Lemma moved_0 l : moved 0%Qc l = l.
Proof. destruct l as [|[c k] r]; cbn; [reflexivity|]. rewrite Qcplus_0_l. reflexivity. Qed.
Lemma zero_kerned x p l : zero_first (moved x (kerned_text p l)) = kerned_text None l.
Proof. destruct l; reflexivity. Qed.
Lemma kerned_len p l : List.length (kerned_text p l) = List.length l.
Proof. revert p. induction l; intros p; cbn; auto. Qed.
Lemma with_kern_len i k l : List.length (with_kern i k l) = List.length l.
Proof. revert i. induction l; intros i; cbn; auto. Qed.
Lemma adj_slug_len s : List.length (adj_slug s) = List.length (measured_slug s).
Proof. apply with_kern_len. Qed.
Lemma adj_box_len b : List.length (adj_box b) = List.length (measured_box b).
Proof.
  destruct b as [s|l st]; cbn; [apply adj_slug_len|]. unfold measured_segs. induction l as [|p l IH]; cbn; [reflexivity|].
  rewrite !app_length, adj_slug_len, IH. reflexivity.
Qed.
Lemma adj_boxes_len l : List.length (flat_map adj_box l) = List.length (flat_map measured_box l).
Proof. induction l as [|b l IH]; cbn; [reflexivity|]. rewrite !app_length, adj_box_len, IH. reflexivity. Qed.
Lemma app_split {A} (a b c d : list A) : List.length a = List.length c -> a ++ b = c ++ d -> a = c /\ b = d.
Proof. revert c. induction a as [|x a IH]; intros [|y c] L E; try discriminate; [auto|]. cbn in E. injection E as -> E. cbn in L. apply IH in E as [-> ->]; auto. Qed.
(** a cut in a kerned text *)
Lemma kerned_cut x p A B MA MB : List.length A = List.length MA -> A ++ B = moved x (kerned_text p (MA ++ MB)) ->
  A = moved x (kerned_text p MA) /\ B = moved (match MA with [] => x | _ => 0%Qc end) (kerned_text (last_of p MA) MB).
Proof.
  intros L E. rewrite kerned_text_app in E. destruct MA as [|m MA].
  - destruct A; [|discriminate]. cbn in *. auto.
  - assert (E' : A ++ B = moved x (kerned_text p (m :: MA)) ++ kerned_text (last_of p (m :: MA)) MB) by exact E.
    apply app_split in E' as [-> ->]; [|rewrite L; cbn; rewrite kerned_len; reflexivity]. rewrite moved_0. auto.
Qed.
Lemma kerned_snoc x p m c : m <> [] -> moved x (kerned_text p m) ++ kerned_text (last_of p m) c = moved x (kerned_text p (m ++ c)).
Proof. intros N. rewrite kerned_text_app. destruct m; [congruence|]. reflexivity. Qed.

(** ** without the initial kern *)
Lemma with_kern_ext i k k' l : (forall j, (i <= j)%nat -> kern_at k j = kern_at k' j) -> with_kern i k l = with_kern i k' l.
Proof. revert i. induction l as [|x l IH]; intros i H; cbn; [reflexivity|]. f_equal; [rewrite H; auto|]. apply IH. intros j J. apply H. lia. Qed.
Lemma slug_without_adj s : slug_ok s -> adj_slug (slug_without_init_kern s) = zero_first (adj_slug s).
Proof.
  intros (N & (HS & HR) & _). unfold slug_without_init_kern, adj_slug. destruct (sl_kern s) as [|[[|i] k] r] eqn:E.
  - rewrite E. unfold measured_slug. destruct (sl_txt s); reflexivity.
  - change (measured_slug (mkSlug (sl_txt s) r _ (sl_state s))) with (measured_slug s). cbn [sl_kern].
    unfold measured_slug. destruct (sl_txt s) as [|c t]; [congruence|]. cbn [styled_str map with_kern zero_first].
    cbn in HS. apply StronglySorted_inv in HS as [_ HS]. f_equal.
    + f_equal. apply kern_at_none. intros x I. rewrite Forall_forall in HS. specialize (HS 0%nat (in_map fst _ _ I)). lia.
    + apply with_kern_ext. intros [|j] J; [lia|]. reflexivity.
  - rewrite E. unfold measured_slug. destruct (sl_txt s) as [|c t]; [congruence|]. cbn [styled_str map with_kern zero_first]. f_equal. f_equal.
    apply kern_at_none. intros x [I|I]; [discriminate|]. cbn in HS. apply StronglySorted_inv in HS as [_ HS]. rewrite Forall_forall in HS. specialize (HS 0%nat (in_map fst _ _ I)). lia.
Qed.
Lemma zero_first_app a b : a <> [] -> zero_first (a ++ b) = zero_first a ++ b.
Proof. destruct a as [|[c k] a]; [congruence|reflexivity]. Qed.
Lemma adj_slug_ne s : sl_txt s <> [] -> adj_slug s <> [].
Proof. intros N E. apply (f_equal (@List.length _)) in E. rewrite adj_slug_len in E. unfold measured_slug, styled_str in E. rewrite map_length in E. destruct (sl_txt s); [congruence|discriminate]. Qed.
Lemma box_without_adj b : box_ok b -> adj_box (box_without_init_kern b) = zero_first (adj_box b).
Proof.
  destruct b as [s|[|[s c] l] st]; cbn [box_ok box_without_init_kern adj_box]; [apply slug_without_adj|reflexivity|].
  intros H. inversion H as [|? ? H1 H2]; subst. cbn [flat_map fst] in *. rewrite (slug_without_adj _ H1), zero_first_app; [reflexivity|].
  apply adj_slug_ne, H1.
Qed.
Lemma box_without_measured b : measured_box (box_without_init_kern b) = measured_box b.
Proof. apply box_without_alike. Qed.

(** ** the invariant of a word *)
Definition is_slug (b : @box QcNum) : Prop := match b with BSlug _ => True | BMixed _ _ => False end.
Definition box_inv (b : @box QcNum) : Prop := box_ok b /\ measured_box b <> [].
Definition word_inv (w : @word QcNum) : Prop :=
  Forall box_inv (w_boxes w) /\ Forall is_slug (removelast (w_boxes w)) /\ measured_word w <> [].
Fixpoint winv (w : @wordlike QcNum) : Prop :=
  match w with WBox _ => False | WWord w => word_inv w | WCmd w _ => winv w end.
Lemma winv_cmd w c : winv w -> winv (with_cmd w c).
Proof. destruct c; auto. Qed.
Lemma with_cmd_adj' w c : adjusted (with_cmd w c) = adjusted w /\ measured (with_cmd w c) = measured w.
Proof. destruct c; auto. Qed.
Lemma winv_measured w : winv w -> measured w <> [].
Proof. induction w as [b|w|w IH c]; cbn; [tauto| |exact IH]. intros H. apply H. Qed.
Lemma box_without_inv b : box_inv b -> box_inv (box_without_init_kern b).
Proof. intros [H1 H2]. split; [apply box_without_init_kern_ok, H1|]. rewrite box_without_measured. exact H2. Qed.
Lemma removelast_cons {A} (x : A) l : l <> [] -> removelast (x :: l) = x :: removelast l.
Proof. destruct l; [congruence|reflexivity]. Qed.
Lemma is_slug_without b : is_slug b -> is_slug (box_without_init_kern b).
Proof. destruct b; cbn; [auto|tauto]. Qed.
Lemma head_without_slugs b r : Forall is_slug (removelast (b :: r)) -> Forall is_slug (removelast (box_without_init_kern b :: r)).
Proof.
  destruct r as [|b2 r]; [constructor|]. rewrite !removelast_cons by discriminate. intros H. inversion H; subst. constructor; auto using is_slug_without.
Qed.
Lemma word_without_kern w : word_inv w ->
  adj_word (word_without_init_kern w) = zero_first (adj_word w) /\ measured_word (word_without_init_kern w) = measured_word w
  /\ word_inv (word_without_init_kern w).
Proof.
  intros (H1 & H2 & H3). assert (Mw : measured_word (word_without_init_kern w) = measured_word w) by (apply (word_without_alike w)).
  split; [|split; [exact Mw|]].
  - unfold word_without_init_kern. destruct w as [[|b r] t st]; cbn [w_boxes w_tail w_state] in *.
    + destruct t as [t|]; [|reflexivity]. destruct (ntruthy (ts_kern t)) eqn:T; [reflexivity|]. apply ntruthy_false in T.
      unfold adj_word. cbn. rewrite T. reflexivity.
    + inversion H1 as [|? ? B1 B2]; subst. destruct B1 as [B1 B3].
      assert (NE : adj_box b <> []). { intros Z. apply (f_equal (@List.length _)) in Z. rewrite adj_box_len in Z. destruct (measured_box b); [congruence|discriminate]. }
      unfold adj_word. cbn [w_boxes w_tail w_state flat_map]. rewrite <- app_assoc, zero_first_app by exact NE.
      destruct (box_has_init_kern b) eqn:IK.
      * cbn [w_boxes w_tail w_state flat_map]. rewrite box_without_adj, <- app_assoc by exact B1. reflexivity.
      * cbn [w_boxes w_tail w_state flat_map]. rewrite <- app_assoc. f_equal. rewrite <- box_without_adj by exact B1. f_equal.
        destruct b as [s|[|[s c] l] s0]; cbn in *; auto; unfold slug_has_init_kern, slug_without_init_kern in *; destruct (sl_kern s) as [|[[|i] k] r0]; try discriminate; reflexivity.
  - split; [|split; [|rewrite Mw; exact H3]]; unfold word_without_init_kern; destruct w as [[|b r] t st]; cbn [w_boxes w_tail w_state] in *.
    + destruct t as [t|]; [destruct (ntruthy (ts_kern t))|]; constructor.
    + inversion H1; subst. destruct (box_has_init_kern b); cbn [w_boxes]; constructor; auto using box_without_inv.
    + destruct t as [t|]; [destruct (ntruthy (ts_kern t))|]; constructor.
    + destruct (box_has_init_kern b); cbn [w_boxes]; [apply head_without_slugs|]; exact H2.
Qed.

(** ** hyphens *)
Lemma kern_at_app k k' i : (forall x, ~ In (i, x) k) -> kern_at (k ++ k') i = kern_at k' i.
Proof.
  unfold kern_at. induction k as [|[j y] k IH]; intros H; [reflexivity|]. cbn [app find fst]. destruct (j =? i)%nat eqn:E.
  - apply Nat.eqb_eq in E. subst j. exfalso. apply (H y). left. reflexivity.
  - apply IH. intros x I. apply (H x). right. exact I.
Qed.
Lemma with_kern_app i k a b : with_kern i k (a ++ b) = with_kern i k a ++ with_kern (i + List.length a) k b.
Proof. revert i. induction a as [|x a IH]; intros i; cbn [app with_kern List.length]; [rewrite Nat.add_0_r; reflexivity|]. rewrite IH. do 3 f_equal. lia. Qed.
Lemma with_kern_ext' i k k' l : (forall j, (i <= j < i + List.length l)%nat -> kern_at k j = kern_at k' j) -> with_kern i k l = with_kern i k' l.
Proof. revert i. induction l as [|x l IH]; intros i H; cbn [with_kern]; [reflexivity|]. cbn [List.length] in H. f_equal; [rewrite H; [reflexivity|lia]|]. apply IH. intros j J. apply H. lia. Qed.
Lemma slug_hyphen_adj s : slug_ok s ->
  adj_slug (slug_with_hyphen s) = adj_slug s ++ kerned_text (Some (slug_last s, sl_state s)) [(45%N, sl_state s)].
Proof.
  intros (N & (HS & HR) & _). unfold adj_slug, slug_with_hyphen. cbn [sl_kern]. unfold measured_slug. cbn [sl_txt sl_state].
  rewrite styled_str_app, with_kern_app. set (n := List.length (sl_txt s)).
  assert (Ln : List.length (styled_str (sl_txt s) (sl_state s)) = n) by apply map_length.
  assert (NO : forall x, ~ In (n, x) (sl_kern s)). { intros x I. rewrite Forall_forall in HR. apply HR in I. cbn in I. unfold n in I. lia. }
  rewrite Ln. cbn [styled_str map with_kern kerned_text Nat.add].
  change (pair_kern (Some (slug_last s, sl_state s)) (hyphen_char, sl_state s)) with (pair_kern (Some (slug_last s, sl_state s)) (45%N, sl_state s)).
  rewrite pair_kern_same. change hyphen_char with 45%N.
  destruct (ntruthy (charkern (st_font (sl_state s)) (slug_last s) 45%N)) eqn:T.
  - f_equal.
    + apply with_kern_ext'. intros j J. rewrite Ln in J. unfold kern_at. clear -J. induction (sl_kern s) as [|[i y] k IH]; cbn [app find fst].
      * replace (n =? j)%nat with false; [reflexivity|]. symmetry. apply Nat.eqb_neq. lia.
      * destruct (i =? j)%nat; [reflexivity|exact IH].
    + do 2 f_equal. rewrite kern_at_app by exact NO. unfold kern_at. cbn [find fst]. rewrite Nat.eqb_refl. reflexivity.
  - apply ntruthy_false in T. rewrite T. do 3 f_equal. apply kern_at_none. exact NO.
Qed.
Lemma box_hyphen_adj b p : is_slug b -> box_inv b ->
  adj_box (box_with_hyphen b) = adj_box b ++ kerned_text (last_of p (measured_box b)) [(45%N, box_state b)].
Proof.
  destruct b as [s|]; [|intros []]. intros _ [H _]. cbn [box_with_hyphen adj_box measured_box box_state]. rewrite slug_hyphen_adj by exact H.
  unfold measured_slug. rewrite last_of_str by apply H. reflexivity.
Qed.
Lemma box_hyphen_inv b : is_slug b -> box_inv b -> box_inv (box_with_hyphen b) /\ is_slug (box_with_hyphen b).
Proof.
  intros I [H1 H2]. split; [|destruct b; auto]. split; [apply box_with_hyphen_ok, H1|]. rewrite box_with_hyphen_measured. destruct (measured_box b); discriminate.
Qed.
(** a word broken after [pre ++ [x]] *)
Lemma broken_kern pre x nb r t st p y : word_inv (mkWord (pre ++ x :: nb :: r) t st) ->
  adj_word (mkWord (pre ++ x :: nb :: r) t st) = moved y (kerned_text p (measured_word (mkWord (pre ++ x :: nb :: r) t st))) ->
  let a := mkWord (pre ++ [box_with_hyphen x]) None (box_state x) in
  let b := mkWord (box_without_init_kern nb :: r) t st in
  word_inv a /\ word_inv b /\ adj_word a = moved y (kerned_text p (measured_word a)) /\ adj_word b = kerned_text None (measured_word b).
Proof.
  intros (H1 & H2 & H3) E. cbn [w_boxes] in *. apply Forall_app in H1 as (Hp & Hx). inversion Hx as [|? ? X Hn]; subst. inversion Hn as [|? ? Nb Hr]; subst.
  assert (RL : removelast (pre ++ x :: nb :: r) = pre ++ x :: removelast (nb :: r)).
  { rewrite removelast_app by discriminate. rewrite removelast_cons by discriminate. reflexivity. }
  rewrite RL in H2. apply Forall_app in H2 as (Sp & Sx). inversion Sx as [|? ? X' Sn]; subst.
  destruct (box_hyphen_inv x X' X) as (XH & XS).
  assert (NX : measured_box x <> []) by apply X.
  assert (EA : adj_word (mkWord (pre ++ x :: nb :: r) t st) = flat_map adj_box (pre ++ [x]) ++ (flat_map adj_box (nb :: r) ++ adj_tail t st)).
  { unfold adj_word. cbn [w_boxes w_tail w_state]. rewrite !flat_map_app. cbn [flat_map]. rewrite !app_nil_r, <- !app_assoc. reflexivity. }
  set (MT := match t with Some _ => [(32%N, st)] | None => [] end : list schar).
  assert (EM : measured_word (mkWord (pre ++ x :: nb :: r) t st) = flat_map measured_box (pre ++ [x]) ++ (flat_map measured_box (nb :: r) ++ MT)).
  { unfold measured_word. cbn [w_boxes w_tail w_state]. rewrite !flat_map_app. cbn [flat_map]. rewrite !app_nil_r, <- !app_assoc. reflexivity. }
  rewrite EA, EM in E. apply kerned_cut in E as (E1 & E2); [|apply adj_boxes_len].
  set (MA := flat_map measured_box (pre ++ [x])) in *.
  assert (NA : MA <> []). { unfold MA. rewrite flat_map_app. cbn. intros Z. apply app_eq_nil in Z as [_ Z]. rewrite app_nil_r in Z. contradiction. }
  assert (E2' : flat_map adj_box (nb :: r) ++ adj_tail t st = kerned_text (last_of p MA) (flat_map measured_box (nb :: r) ++ MT)).
  { destruct MA; [congruence|]. rewrite moved_0 in E2. exact E2. }
  assert (LA : last_of p MA = last_of None (measured_box x)).
  { unfold MA. rewrite flat_map_app, last_of_app. cbn [flat_map]. rewrite app_nil_r. unfold last_of. destruct (rev (measured_box x)) eqn:R; [|reflexivity].
    apply (f_equal (@rev _)) in R. rewrite rev_involutive in R. cbn in R. contradiction. }
  cbn zeta. split; [|split; [|split]].
  - split; [|split]; cbn [w_boxes].
    + apply Forall_app. split; [exact Hp|]. constructor; [exact XH|constructor].
    + rewrite removelast_last. exact Sp.
    + unfold measured_word. cbn [w_boxes w_tail]. rewrite flat_map_app. cbn [flat_map]. rewrite box_with_hyphen_measured. intros Z. apply app_eq_nil in Z as [Z _].
      apply app_eq_nil in Z as [_ Z]. destruct (measured_box x); discriminate.
  - split; [|split]; cbn [w_boxes].
    + constructor; [apply box_without_inv, Nb|exact Hr].
    + apply head_without_slugs, Sn.
    + unfold measured_word. cbn [w_boxes w_tail flat_map]. rewrite box_without_measured. destruct Nb as (_ & Nb). intros Z. apply app_eq_nil in Z as [Z _]. apply app_eq_nil in Z as [Z _]. contradiction.
  - assert (EA' : adj_word (mkWord (pre ++ [box_with_hyphen x]) None (box_state x)) = flat_map adj_box (pre ++ [x]) ++ kerned_text (last_of p MA) [(45%N, box_state x)]).
    { unfold adj_word. cbn [w_boxes w_tail w_state adj_tail]. rewrite !flat_map_app. cbn [flat_map]. rewrite !app_nil_r, (box_hyphen_adj x None X' X), LA, app_assoc. reflexivity. }
    assert (EM' : measured_word (mkWord (pre ++ [box_with_hyphen x]) None (box_state x)) = MA ++ [(45%N, box_state x)]).
    { unfold measured_word, MA. cbn [w_boxes w_tail w_state]. rewrite !flat_map_app. cbn [flat_map]. rewrite !app_nil_r, box_with_hyphen_measured, app_assoc. reflexivity. }
    rewrite EA', EM', E1. apply kerned_snoc, NA.
  - assert (NB : adj_box nb <> []). { intros Z. apply (f_equal (@List.length _)) in Z. rewrite adj_box_len in Z. destruct Nb as (_ & Nb). destruct (measured_box nb); [congruence|discriminate]. }
    transitivity (zero_first (flat_map adj_box (nb :: r) ++ adj_tail t st)).
    + unfold adj_word. cbn [w_boxes w_tail w_state flat_map]. rewrite box_without_adj by apply Nb. rewrite <- !app_assoc, zero_first_app by exact NB. reflexivity.
    + rewrite E2'. rewrite <- (moved_0 (kerned_text (last_of p MA) _)), zero_kerned. unfold measured_word. cbn [w_boxes w_tail w_state flat_map]. rewrite box_without_measured. reflexivity.
Qed.

(** ** word-likes *)
Definition kern_as (x : Qc) (p : option schar) (w : @wordlike QcNum) : Prop := adjusted w = moved x (kerned_text p (measured w)).
Lemma kern_as_cmd x p w c : kern_as x p (with_cmd w c) <-> kern_as x p w.
Proof. unfold kern_as. destruct (with_cmd_adj' w c) as [-> ->]. reflexivity. Qed.
Lemma word_parts_kern pre b nb r t st x p : word_inv (mkWord (pre ++ b :: nb :: r) t st) -> kern_as x p (WWord (mkWord (pre ++ b :: nb :: r) t st)) ->
  let a := WWord (mkWord (pre ++ [box_with_hyphen b]) None (box_state b)) in
  let c := WWord (mkWord (box_without_init_kern nb :: r) t st) in
  winv a /\ winv c /\ kern_as x p a /\ kern_as 0%Qc None c.
Proof.
  intros H E. destruct (broken_kern _ _ _ _ _ _ _ _ H E) as (A & B & C & D). unfold kern_as. cbn [winv adjusted measured]. rewrite moved_0. auto.
Qed.
Lemma hyphenate_kern w sp x p : forall a b, winv w -> kern_as x p w -> wl_hyphenate w sp = Ok (a, b) ->
  winv b /\ kern_as 0%Qc None b /\ match a with Some a => winv a /\ kern_as x p a | None => measured b = measured w /\ exists k, adjusted w = moved k (adjusted b) end.
Proof.
  induction w as [b0|w|w IH c]; intros a b V K E; cbn [wl_hyphenate] in E; [destruct V| |].
  - apply rmap_inv in E as ([a' b'] & E & E2). injection E2 as -> ->. cbn [fst snd option_map winv] in *.
    unfold word_hyphenate in E.
    assert (NO : forall a' b', Ok (None, word_without_init_kern w) = Ok (a', b') ->
      word_inv b' /\ kern_as 0%Qc None (WWord b') /\ match option_map (@WWord QcNum) a' with Some a => winv a /\ kern_as x p a | None => measured (WWord b') = measured (WWord w) /\ exists k, adjusted (WWord w) = moved k (adjusted (WWord b')) end).
    { intros a1 b1 E1. apply Ok_inj in E1. injection E1 as <- <-. destruct (word_without_kern w V) as (W1 & W2 & W3). cbn [option_map].
      split; [exact W3|]. split; [|split; [exact W2|]].
      - unfold kern_as in *. cbn [adjusted measured] in *. rewrite W1, W2, K, zero_kerned, moved_0. reflexivity.
      - cbn [adjusted]. rewrite W1. destruct (adj_word w) as [|[y k] r]; [exists 0%Qc; reflexivity|]. exists k. cbn. rewrite Qcplus_0_r. reflexivity. }
    destruct w as [[|b1 rest] t st]; cbn [w_boxes] in E; [apply NO; exact E|].
    destruct (nltb _ _); [apply NO; exact E|]. apply bind_ok in E as ([[[fit st'] nb] r] & HL & E). apply Ok_inj in E. injection E as <- <-.
    apply hyph_loop_parts in HL as (pre & y & E1 & -> & ->). cbn [w_tail w_state option_map app] in *. rewrite E1 in V, K.
    destruct (word_parts_kern pre y nb r t st x p V K) as (A & B & C & D). auto.
  - apply rmap_inv in E as ([a' b'] & E & E2). injection E2 as -> ->. cbn [fst snd] in *.
    destruct (IH a' b' V K E) as (A & B & C). split; [apply winv_cmd, A|]. split; [apply kern_as_cmd, B|].
    destruct a'; [exact C|]. destruct (with_cmd_adj' b' c) as [-> ->]. exact C.
Qed.
Lemma minimal_kern w x p : forall a b, winv w -> kern_as x p w -> wl_minimal w = (a, b) ->
  winv a /\ kern_as x p a /\ match b with Some b => winv b /\ kern_as 0%Qc None b | None => measured a = measured w /\ adjusted a = adjusted w end.
Proof.
  induction w as [b0|w|w IH c]; intros a b V K E; cbn [wl_minimal] in E; [destruct V| |].
  - destruct (word_minimal w) as [a' b'] eqn:E1. injection E as <- <-. unfold word_minimal in E1.
    destruct w as [[|b1 [|b2 r]] t st]; cbn [w_boxes w_tail w_state] in E1; injection E1 as <- <-; cbn [option_map]; auto.
    destruct (word_parts_kern [] b1 b2 r t st x p V K) as (A & B & C & D). auto.
  - destruct (wl_minimal w) as [a' b'] eqn:E1. destruct (IH a' b' V K eq_refl) as (A & B & C).
    destruct b' as [b'|]; injection E as <- <-.
    + destruct C as (C1 & C2). split; [exact A|]. split; [exact B|]. split; [apply winv_cmd, C1|apply kern_as_cmd, C2].
    + destruct (with_cmd_adj' a' c) as [E2 E3]. split; [apply winv_cmd, A|]. split; [apply kern_as_cmd, B|]. rewrite E2, E3. exact C.
Qed.
Lemma pruned_kern w x p : kern_as x p w -> kern_as x p (wl_pruned w).
Proof.
  induction w as [b|w|w IH c]; cbn [wl_pruned]; auto. unfold kern_as. cbn [adjusted measured]. unfold word_pruned. destruct w as [bl [t|] st]; cbn [w_tail]; [|auto].
  unfold adj_word, measured_word. cbn [w_boxes w_tail w_state adj_tail]. intros E. rewrite !app_nil_r. apply kerned_cut in E as (E & _); [exact E|apply adj_boxes_len].
Qed.

(** ** lines *)
Fixpoint kq (al : bool) (d : option schar) (x : Qc) (ws : list (@wordlike QcNum)) : Prop :=
  match ws with
  | [] => True
  | w :: r => (exists p, (p = d \/ al = true /\ p = None) /\ kern_as x p w) /\ kq al (last_of d (measured w)) 0%Qc r
  end.
Lemma kq_app al a b : forall d x, kq al d x (a ++ b) <-> kq al d x a /\ kq al (last_of d (measured_all a)) (match a with [] => x | _ => 0%Qc end) b.
Proof.
  induction a as [|w a IH]; intros d x; cbn [app kq]; [cbn; tauto|]. rewrite IH. unfold measured_all. cbn [flat_map]. fold (measured_all a). rewrite last_of_app.
  assert (Z : match a with [] => 0%Qc | _ => 0%Qc end = 0%Qc) by (destruct a; reflexivity). rewrite Z. tauto.
Qed.
Lemma kq_line al d x ws : kq al d x ws -> kerned_line al d x ws.
Proof. intros K a w b ->. apply kq_app in K as (_ & K). cbn [kq] in K. apply K. Qed.
Lemma last_of_ne d d' l : l <> [] -> last_of d l = last_of d' l.
Proof. intros N. unfold last_of. destruct (rev l) eqn:E; [|reflexivity]. apply (f_equal (@rev _)) in E. rewrite rev_involutive in E. cbn in E. contradiction. Qed.
(** forced: one unbroken word, too wide for the line (with its kern) *)
Definition forced (wd : Qc) (l : @line QcNum) (w0 : @wordlike QcNum) : Prop :=
  l_words l = [w0] /\ exists w k, winv w /\ adjusted w = moved k (adjusted w0) /\ (wd < wl_pruned_width w)%Qc.
Lemma last_of_app_ne d (a b : list schar) : b <> [] -> last_of d (a ++ b) = last_of None b.
Proof. intros N. rewrite last_of_app. apply last_of_ne, N. Qed.
Lemma fit_words_stop ws : forall (space : @num QcNum) content c sp w r, fit_words ws space content = (c, sp, Some (w, r)) -> nltb sp (wl_pruned_width w) = true /\ (c = content -> sp = space).
Proof.
  induction ws as [|y ws IH]; intros space content c sp w r; cbn [fit_words]; [discriminate|]. destruct (nltb _ _) eqn:N.
  - injection 1 as <- <- <- <-. auto.
  - intros E. pose proof (fit_words_spec _ _ _ _ _ _ E) as (t & -> & _). apply IH in E as (E1 & E2). split; [exact E1|]. intros C.
    apply (f_equal (@List.length _)) in C. rewrite !app_length in C. cbn in C. lia.
Qed.
Lemma take_line_kern al ws (wd : Qc) q l d x : kq al d x ws -> Forall winv ws -> take_line ws wd = Ok (q, l) ->
  (kq al d x (l_words l) \/ kq al None 0%Qc (l_words l) /\ exists w r, ws = w :: r /\ (wd < wl_pruned_width w)%Qc) /\ Forall winv (opt_list q)
  /\ (kq al None 0%Qc (opt_list q) \/ exists w0, forced wd l w0 /\ kq al (last_of None (measured w0)) 0%Qc (opt_list q)).
Proof.
  intros K V. unfold take_line. destruct (fit_words ws wd []) as [[c sp] stop] eqn:F. pose proof F as F0.
  apply fit_words_spec in F as (t & -> & EW). cbn [app] in *. destruct stop as [[w r]|].
  2:{ intros E. injection E as <- <-. cbn [l_words opt_list]. rewrite app_nil_r in EW. subst t. split; [left; exact K|]. split; [constructor|left; exact I]. }
  apply fit_words_stop in F0 as (TW & SPW). subst ws. apply Forall_app in V as (Vt & V). inversion V as [|? ? Vw Vr]; subst. apply kq_app in K as (Kt & K). cbn [kq] in K. destruct K as ((p & P & Kw) & Kr).
  intros E. apply bind_ok in E as ([last dangling] & HY & E). pose proof (wl_hyphenate_cases _ _ _ _ HY) as HC.
  destruct (hyphenate_kern _ _ _ _ _ _ Vw Kw HY) as (Vd & Kd & KL).
  set (d1 := last_of d (measured_all t)) in *.
  assert (Kr' : kq al (last_of None (measured dangling)) 0%Qc r).
  { replace (last_of None (measured dangling)) with (last_of d1 (measured w)); [exact Kr|]. destruct last as [lw|].
    - destruct HC as ((pc & _ & ->) & _). apply last_of_app_ne, winv_measured, Vd.
    - destruct KL as (-> & _). apply last_of_ne, winv_measured, Vw. }
  assert (REST : kq al None 0%Qc (dangling :: r)). { split; [exists None; auto|exact Kr']. }
  destruct last as [lw|].
  - injection E as <- <-. cbn [l_words opt_list]. destruct KL as (Vl & Kl). split; [left|split; [constructor; assumption|left; exact REST]].
    apply kq_app. split; [exact Kt|]. split; [exists p; auto|exact I].
  - destruct (rev t) as [|y rt] eqn:RT.
    + assert (t = []) as -> by (destruct t; auto; apply (f_equal (@List.length _)) in RT; rewrite rev_length in RT; discriminate).
      specialize (SPW eq_refl). subst sp. apply Qcltb_lt in TW.
      destruct (wl_minimal dangling) as [z leftover] eqn:M. destruct (minimal_kern _ _ _ _ _ Vd Kd M) as (Vz & Kz & ML). pose proof (wl_minimal_cases _ _ _ M) as MC.
      assert (LN : kq al None 0%Qc [z]). { split; [exists None; auto|exact I]. }
      destruct leftover as [y|].
      * injection E as <- <-. cbn [l_words opt_list]. destruct ML as (Vy & Ky). split; [right; split; [exact LN|eexists _, _; split; [reflexivity|exact TW]]|]. split; [constructor; assumption|left].
        split; [exists None; auto|]. replace (last_of None (measured y)) with (last_of None (measured dangling)); [exact Kr'|].
        destruct MC as ((pc & _ & ->) & _). apply last_of_app_ne, winv_measured, Vy.
      * destruct ML as (ML1 & ML2). destruct KL as (KL1 & k & KL2). destruct r as [|r0 r].
        -- injection E as <- <-. cbn [l_words opt_list]. split; [right; split; [exact LN|eexists _, _; split; [reflexivity|exact TW]]|]. split; [constructor|left; exact I].
        -- injection E as <- <-. cbn [l_words opt_list]. split; [right; split; [exact LN|eexists _, _; split; [reflexivity|exact TW]]|]. split; [exact Vr|right]. exists z. split.
           ++ split; [reflexivity|]. exists w, k. split; [exact Vw|]. split; [rewrite ML2; exact KL2|exact TW].
           ++ rewrite ML1. exact Kr'.
    + assert (ET : t = rev rt ++ [y]) by (rewrite <- (rev_involutive t), RT; reflexivity).
      destruct (ntruthy (wl_prunable y)); injection E as <- <-; cbn [l_words opt_list]; (split; [left|split; [constructor; assumption|left; exact REST]]).
      * rewrite ET, removelast_last. rewrite ET in Kt. apply kq_app in Kt as (K1 & K2). apply kq_app. split; [exact K1|].
        cbn [kq] in K2 |- *. destruct K2 as ((p' & P' & K2) & _). split; [exists p'; split; [exact P'|apply pruned_kern, K2]|exact I].
      * exact Kt.
Qed.
(** all the lines: the first starts as the words do, or unmoved; a later one unmoved, or
    (after a forced line) kerned with the character before it *)
Lemma steps_kern al q ls z : @steps QcNum ENV q ls z -> forall d x, kq al d x (opt_list q) -> Forall winv (opt_list q) ->
  forall before wd l after, ls = before ++ (wd, l) :: after ->
  match before with
  | [] => kq al d x (l_words l) \/ kq al None 0%Qc (l_words l) /\ exists w r, opt_list q = w :: r /\ (wd < wl_pruned_width w)%Qc
  | _ => kq al None 0%Qc (l_words l)
  \/ exists b0 wd0 l0 w0, before = b0 ++ [(wd0, l0)] /\ forced wd0 l0 w0 /\ kq al (last_of None (measured w0)) 0%Qc (l_words l)
  end.
Proof.
  induction 1 as [q|ws w q l0 r z T _ IH]; intros d x K V before wd l after E; [destruct before; discriminate|].
  cbn [opt_list] in *. destruct (take_line_kern _ _ _ _ _ _ _ K V T) as (T1 & T2 & T3). destruct before as [|[wb lb] before].
  - cbn [app] in E. injection E as <- <- <-. exact T1.
  - cbn [app] in E. injection E as <- <- E. destruct T3 as [T3|(w0 & F & T3)]; pose proof (IH _ _ T3 T2 before wd l after E) as I1.
    + destruct before as [|b1 before]; [left; tauto|]. destruct I1 as [I1|(b0 & wd0 & l1 & w1 & -> & F & I1)]; [left; exact I1|].
      right. exists ((w, l0) :: b0), wd0, l1, w1. split; [reflexivity|auto].
    + destruct before as [|b1 before].
      * destruct I1 as [I1|(I1 & _)]; [right|left; exact I1]. exists [], w, l0, w0. auto.
      * destruct I1 as [I1|(b0 & wd0 & l1 & w1 & -> & F1 & I1)]; [left; exact I1|]. right. exists ((w, l0) :: b0), wd0, l1, w1. split; [reflexivity|auto].
Qed.

(** ** indentation *)
Lemma slug_indent_adj s (x : Qc) s' : slug_ok s -> slug_indent s x = Ok s' -> adj_slug s' = moved (x / st_size (sl_state s) * thousand)%Qc (adj_slug s).
Proof.
  intros (N & (HS & HR) & _). unfold slug_indent. destruct (@ntruthy QcNum x) eqn:T.
  2:{ intros E. apply Ok_inj in E. subst s'. apply ntruthy_false in T. subst x. rewrite Qcdiv_def, !Qcmult_0_l, moved_0. reflexivity. }
  destruct (slug_has_init_kern s) eqn:IK; [discriminate|]. intros E. apply bind_ok in E as (q & Q & E). apply pdiv_ok in Q as (_ & ->). apply Ok_inj in E. subst s'.
  unfold adj_slug. change (measured_slug (mkSlug (sl_txt s) _ _ (sl_state s))) with (measured_slug s). cbn [sl_kern]. unfold measured_slug.
  destruct (sl_txt s) as [|c t]; [congruence|]. cbn [styled_str map with_kern moved].
  assert (K0 : kern_at (sl_kern s) 0 = 0%Qc).
  { apply kern_at_none. intros y I. unfold slug_has_init_kern in IK. destruct (sl_kern s) as [|[[|i] k] r]; [destruct I|discriminate|]. destruct I as [I|I]; [discriminate|].
    cbn in HS. apply StronglySorted_inv in HS as [_ HS]. rewrite Forall_forall in HS. specialize (HS 0%nat (in_map fst _ _ I)). lia. }
  rewrite K0, Qcplus_0_r. f_equal. apply with_kern_ext. intros [|j] J; [lia|]. reflexivity.
Qed.
Lemma moved_app x a b : a <> [] -> moved x (a ++ b) = moved x a ++ b.
Proof. destruct a as [|[c k] a]; [congruence|reflexivity]. Qed.
Lemma slug_head s x r : sl_txt s <> [] -> indent_of x (measured_slug s ++ r) = (x / st_size (sl_state s) * thousand)%Qc.
Proof. intros N. unfold measured_slug. destruct (sl_txt s); [congruence|reflexivity]. Qed.
Lemma box_indent_adj b (x : Qc) b' : box_inv b -> box_indent b x = Ok b' -> adj_box b' = moved (indent_of x (measured_box b)) (adj_box b).
Proof.
  intros (H & N). destruct b as [s|[|[s c] l] st]; cbn [box_indent box_ok] in *.
  - intros E. apply rmap_inv in E as (s' & E & ->). cbn [adj_box measured_box]. rewrite <- (app_nil_r (measured_slug s)), slug_head by apply H. apply slug_indent_adj; assumption.
  - cbn in N. congruence.
  - inversion H as [|? ? Hs Hl]; subst. intros E. cbn [adj_box measured_box measured_segs flat_map fst] in *. unfold measured_segs. cbn [flat_map fst]. rewrite slug_head by apply Hs.
    destruct (@ntruthy QcNum x) eqn:T.
    + apply rmap_inv in E as (s' & E & ->). cbn [adj_box flat_map fst]. rewrite (slug_indent_adj _ _ _ Hs E), moved_app; [reflexivity|]. apply adj_slug_ne, Hs.
    + apply Ok_inj in E. subst b'. apply ntruthy_false in T. subst x. rewrite Qcdiv_def, !Qcmult_0_l, moved_0. reflexivity.
Qed.
Lemma head_indent_slugs b b' r x : box_indent b x = Ok b' -> Forall is_slug (removelast (b :: r)) -> Forall is_slug (removelast (b' :: r)).
Proof.
  intros E. destruct r as [|b2 r]; [constructor|]. rewrite !removelast_cons by discriminate. intros H. inversion H as [|? ? H1 H2]; subst. constructor; auto.
  destruct b as [s|]; [|destruct H1]. cbn in E. apply rmap_inv in E as (s' & _ & ->). exact I.
Qed.
Lemma word_indent_adj w (x : Qc) w' : word_inv w -> tail_ok (w_tail w) (w_state w) -> word_indent w x = Ok w' -> adj_word w' = moved (indent_of x (measured_word w)) (adj_word w) /\ word_inv w'.
Proof.
  intros (H1 & H2 & H3) TO E. unfold word_indent in E. destruct (@ntruthy QcNum x) eqn:T.
  2:{ apply Ok_inj in E. subst w'. apply ntruthy_false in T. subst x. split; [|split; auto].
      replace (indent_of 0%Qc (measured_word w)) with 0%Qc; [symmetry; apply moved_0|]. unfold indent_of. destruct (measured_word w) as [|[c s] r]; [reflexivity|].
      rewrite Qcdiv_def, !Qcmult_0_l. reflexivity. }
  destruct w as [[|b r] t st]; cbn [w_boxes w_tail w_state] in *.
  - destruct t as [t|]; [|discriminate]. apply rmap_inv in E as (t' & E & ->). unfold tspace_stretch in E. apply bind_ok in E as (q & Q & E). apply pdiv_ok in Q as (_ & ->). apply Ok_inj in E. subst t'.
    split; [|split; [constructor|split; [constructor|discriminate]]]. unfold adj_word, measured_word, indent_of. cbn [w_boxes w_tail w_state flat_map app adj_tail moved ts_kern].
    do 2 f_equal. apply Qcplus_comm.
  - apply rmap_inv in E as (b' & E & ->). inversion H1 as [|? ? B1 B2]; subst. pose proof (box_indent_adj _ _ _ B1 E) as EA. pose proof (box_indent_alike _ _ _ E) as (A1 & _).
    assert (NE : adj_box b <> []). { intros Z. apply (f_equal (@List.length _)) in Z. rewrite adj_box_len in Z. destruct B1 as (_ & B1). destruct (measured_box b); [congruence|discriminate]. }
    split; [|split; [|split]].
    + unfold adj_word, measured_word. cbn [w_boxes w_tail w_state flat_map]. rewrite EA, <- !app_assoc, moved_app by exact NE. f_equal. f_equal.
      destruct B1 as (_ & B1). destruct (measured_box b); [congruence|reflexivity].
    + cbn [w_boxes]. constructor; [|exact B2]. split; [eapply box_indent_ok; [apply B1|exact E]|]. rewrite A1. apply B1.
    + cbn [w_boxes]. eapply head_indent_slugs; eauto.
    + unfold measured_word in *. cbn [w_boxes w_tail w_state flat_map] in *. rewrite A1. exact H3.
Qed.
Lemma wl_indent_adj w (x : Qc) : forall w', winv w -> wl_ok w -> wl_indent w x = Ok w' -> adjusted w' = moved (indent_of x (measured w)) (adjusted w) /\ winv w'.
Proof.
  induction w as [b|w|w IH c]; intros w' V O E; cbn [wl_indent] in E; [destruct V| |].
  - apply rmap_inv in E as (y & E & ->). cbn in *. apply word_indent_adj; auto. apply O.
  - destruct (@ntruthy QcNum x) eqn:T; [apply rmap_inv in E as (y & E & ->); exact (IH y V O E)|]. apply Ok_inj in E. subst w'. split; [|exact V].
    apply ntruthy_false in T. subst x. replace (indent_of 0%Qc (measured (WCmd w c))) with 0%Qc; [symmetry; apply moved_0|].
    unfold indent_of. destruct (measured _) as [|[c' s] r]; [reflexivity|]. rewrite Qcdiv_def, !Qcmult_0_l. reflexivity.
Qed.
Lemma moved_moved x y l : moved x (moved y l) = moved (x + y)%Qc l.
Proof. destruct l as [|[c k] l]; cbn; [reflexivity|]. rewrite Qcplus_assoc. reflexivity. Qed.
Lemma indent_of_app x a b : a <> [] -> indent_of x (a ++ b) = indent_of x a.
Proof. destruct a; [congruence|reflexivity]. Qed.
Lemma indent_kq al ws (x : Qc) ws' : Forall winv ws -> Forall wl_ok ws -> kq al None 0%Qc ws -> indent_first ws x = Ok ws' ->
  kq al None (indent_of x (measured_all ws)) ws' /\ Forall winv ws'.
Proof.
  intros V O K E. destruct ws as [|w r]; cbn [indent_first] in E; [apply Ok_inj in E; subst; split; [exact I|constructor]|].
  apply bind_ok in E as (w' & E & E2). apply Ok_inj in E2. subst ws'. inversion V; subst. inversion O; subst. destruct K as ((p & P & K) & Kr).
  destruct (wl_indent_adj w x w') as (A & V'); auto. pose proof (wl_indent_alike _ _ _ E) as (Mw & _). split; [|constructor; auto].
  unfold measured_all. cbn [flat_map]. rewrite indent_of_app by (apply winv_measured; assumption). split.
  - exists p. split; [exact P|]. unfold kern_as in *. rewrite A, K, Mw, moved_moved, Qcplus_0_r. reflexivity.
  - rewrite Mw. exact Kr.
Qed.

(** ** justification *)
Lemma stretched_app e a b : b <> [] -> stretched e (a ++ b) = a ++ stretched e b.
Proof. intros N. unfold stretched. rewrite rev_app_distr, moved_app, rev_app_distr, rev_involutive; [reflexivity|]. intros Z. apply (f_equal (@rev _)) in Z. rewrite rev_involutive in Z. contradiction. Qed.
Lemma stretched_0 l : stretched 0%Qc l = l.
Proof. unfold stretched. rewrite moved_0. apply rev_involutive. Qed.
Lemma extend_adj w (x : Qc) : forall w', wl_extend_tail w x = Ok w' ->
  exists e, adjusted w' = stretched e (adjusted w) /\ (wl_tail w = None -> e = 0%Qc).
Proof.
  induction w as [b|w|w IH c]; intros w' E; cbn [wl_extend_tail] in E.
  - apply Ok_inj in E. subst. exists 0%Qc. rewrite stretched_0. auto.
  - apply rmap_inv in E as (y & E & ->). unfold word_extend_tail in E. destruct w as [bl [t|] st]; cbn [w_tail w_boxes w_state] in E.
    2:{ apply Ok_inj in E. subst. exists 0%Qc. rewrite stretched_0. auto. }
    destruct (@ntruthy QcNum x); [|apply Ok_inj in E; subst; exists 0%Qc; rewrite stretched_0; auto].
    apply rmap_inv in E as (t' & E & ->). unfold tspace_stretch in E. apply bind_ok in E as (q & Q & E). apply Ok_inj in E. subst t'.
    exists (q * thousand)%Qc. split; [|discriminate]. cbn [adjusted]. unfold adj_word. cbn [w_boxes w_tail w_state adj_tail ts_kern]. rewrite stretched_app by discriminate.
    f_equal. unfold stretched. cbn [rev app moved]. do 2 f_equal. apply Qcplus_comm.
  - destruct (wl_tail w) as [t|] eqn:T; [|apply Ok_inj in E; subst; exists 0%Qc; rewrite stretched_0; auto].
    destruct (@ntruthy QcNum x); [|apply Ok_inj in E; subst; exists 0%Qc; rewrite stretched_0; auto].
    apply rmap_inv in E as (y & E & ->). destruct (IH _ E) as (e & A & _). exists e. split; [exact A|]. cbn. rewrite T. discriminate.
Qed.
Lemma stretch_adj w (x : Qc) : forall w', wl_stretch_tail w x = Ok w' ->
  exists e, adjusted w' = stretched e (adjusted w) /\ (wl_tail w = None -> e = 0%Qc).
Proof.
  induction w as [b|w|w IH c]; intros w' E; cbn [wl_stretch_tail] in E.
  - apply Ok_inj in E. subst. exists 0%Qc. rewrite stretched_0. auto.
  - apply rmap_inv in E as (y & E & ->). unfold word_stretch_tail in E. destruct w as [bl [t|] st]; cbn [w_tail w_boxes w_state] in E.
    2:{ apply Ok_inj in E. subst. exists 0%Qc. rewrite stretched_0. auto. }
    destruct (@neqb QcNum x n1); [apply Ok_inj in E; subst; exists 0%Qc; rewrite stretched_0; split; [reflexivity|discriminate]|].
    apply rmap_inv in E as (t' & E & ->). unfold tspace_stretch in E. apply bind_ok in E as (q & Q & E). apply Ok_inj in E. subst t'.
    exists (q * thousand)%Qc. split; [|discriminate]. cbn [adjusted]. unfold adj_word. cbn [w_boxes w_tail w_state adj_tail ts_kern]. rewrite stretched_app by discriminate.
    f_equal. unfold stretched. cbn [rev app moved]. do 2 f_equal. apply Qcplus_comm.
  - destruct (wl_tail w) as [t|] eqn:T; [|apply Ok_inj in E; subst; exists 0%Qc; rewrite stretched_0; auto].
    apply rmap_inv in E as (y & E & ->). destruct (IH _ E) as (e & A & _). exists e. split; [exact A|]. cbn. rewrite T. discriminate.
Qed.

(** ** optimal lines: fragments *)
Section Frags.
Variable al : bool.
Definition from (p d : option schar) : Prop := p = d \/ al = true /\ p = None.
Fixpoint fk (d : option schar) (x : Qc) (fs : list (@fragment QcNum)) : Prop :=
  match fs with
  | [] => True
  | f :: r => (exists p, from p d /\ kern_as x p (fr_txt f) /\ match fr_break f with Some w => kern_as x p w | None => True end)
              /\ fk (last_of d (measured (fr_txt f))) 0%Qc r
  end.
Lemma fk_app a b : forall d x, fk d x (a ++ b) <-> fk d x a /\ fk (last_of d (measured_all (map fr_txt a))) (match a with [] => x | _ => 0%Qc end) b.
Proof.
  induction a as [|f a IH]; intros d x; cbn [app fk map]; [cbn; tauto|]. rewrite IH. unfold measured_all. cbn [flat_map]. fold (measured_all (map fr_txt a)). rewrite last_of_app.
  assert (Z : match a with [] => 0%Qc | _ => 0%Qc end = 0%Qc) by (destruct a; reflexivity). rewrite Z. tauto.
Qed.
Lemma from_last p d l : from p d -> l <> [] -> from (last_of p l) (last_of d l).
Proof. intros _ N. left. apply last_of_ne, N. Qed.
Notation chunk b := (mkFrag (WBox b) (Some (WBox (box_with_hyphen b))) NoOp).
Lemma chunks_fk bs : forall d x p B MB, from p d -> Forall is_slug bs -> Forall box_inv bs ->
  flat_map adj_box bs ++ B = moved x (kerned_text p (flat_map measured_box bs ++ MB)) ->
  fk d x (map (fun b => chunk b) bs)
  /\ exists p', from p' (last_of d (flat_map measured_box bs)) /\ B = moved (match bs with [] => x | _ => 0%Qc end) (kerned_text p' MB).
Proof.
  induction bs as [|b bs IH]; intros d x p B MB F S V E; cbn [flat_map map fk app] in *.
  - split; [exact I|]. exists p. auto.
  - inversion S as [|? ? S1 S2]; subst. inversion V as [|? ? V1 V2]; subst. rewrite <- !app_assoc in E. apply kerned_cut in E as (E1 & E2); [|apply adj_box_len].
    assert (NB : measured_box b <> []) by apply V1.
    assert (E2' : flat_map adj_box bs ++ B = moved 0%Qc (kerned_text (last_of p (measured_box b)) (flat_map measured_box bs ++ MB))) by (destruct (measured_box b); [congruence|exact E2]).
    destruct (IH (last_of d (measured_box b)) 0%Qc _ _ _ (from_last _ _ _ F NB) S2 V2 E2') as (I1 & p' & I2 & I3). split; [split|].
    + exists p. split; [exact F|]. cbn [fr_txt fr_break]. unfold kern_as. cbn [adjusted measured]. split; [exact E1|].
      rewrite (box_hyphen_adj b p S1 V1), box_with_hyphen_measured, E1. apply kerned_snoc, NB.
    + cbn [fr_txt measured]. exact I1.
    + exists p'. rewrite last_of_app. split; [exact I2|]. rewrite I3. destruct bs; reflexivity.
Qed.
Lemma word_boxes_fk just w wd st sh l wd' st' sh' d x p : flat w -> winv w -> from p d -> kern_as x p w ->
  word_boxes just w wd st sh = Ok (l, wd', st', sh') -> fk d x (map fst l).
Proof.
  intros FL V F K H. unfold word_boxes in H.
  assert (U : exists y c, unwrap w = (WWord y, c) /\ adjusted w = adj_word y /\ measured w = measured_word y /\ word_inv y).
  { destruct w as [b|y|[b|y|w c'] c]; cbn in FL; try contradiction; [exists y, NoOp|exists y, c]; auto. }
  destruct U as (y & c & U & AW & MW & (V1 & V2 & V3)). rewrite U in H. cbn [wl_boxes wl_tail wl_state] in H.
  destruct (chunk_boxes (removelast (w_boxes y)) wd st sh) as [ch wd1] eqn:CH.
  pose proof (chunk_frags (removelast (w_boxes y)) wd st sh) as CF. rewrite CH in CF. cbn [fst] in CF.
  unfold kern_as in K. rewrite AW, MW in K. unfold adj_word, measured_word in K.
  set (MT := match w_tail y with Some _ => [(32%N, w_state y)] | None => [] end : list schar) in *.
  destruct (rev (w_boxes y)) as [|b rb] eqn:R.
  - assert (EB : w_boxes y = []) by (rewrite <- (rev_involutive (w_boxes y)), R; reflexivity). rewrite EB in *. cbn [removelast map flat_map app] in *.
    destruct (w_tail y) as [t|] eqn:ET; [|discriminate]. inversion H; subst l wd' st' sh'; clear H. rewrite map_app, CF. cbn [map app fst fk fr_txt fr_break].
    split; [|exact I]. exists p. split; [exact F|]. split; [|exact I]. unfold kern_as. cbn [adjusted measured]. unfold adj_word, measured_word. cbn [w_boxes w_tail w_state flat_map app]. exact K.
  - pose proof (removelast_last_rev _ _ _ R) as EB. set (init := removelast (w_boxes y)) in *. clearbody init. rewrite EB in K, V1. rewrite !flat_map_app, <- !app_assoc in K.
    apply Forall_app in V1 as (Vi & Vb). inversion Vb as [|? ? Vb1 _]; subst.
    destruct (chunks_fk init d x p _ _ F V2 Vi K) as (C1 & p' & C2 & C3). cbn [flat_map] in C3. rewrite !app_nil_r in C3.
    pose proof C3 as C4. apply kerned_cut in C4 as (C4 & _); [|apply adj_box_len].
    assert (XX : match map (fun b => chunk b) init with [] => x | _ => 0%Qc end = match init with [] => x | _ => 0%Qc end) by (destruct init; reflexivity).
    assert (MX : measured_all (map fr_txt (map (fun b => chunk b) init)) = flat_map measured_box init).
    { rewrite map_map. apply chunks_measured. }
    destruct (w_tail y) as [t|] eqn:ET; inversion H; subst l wd' st' sh'; clear H; rewrite map_app, CF; apply fk_app; (split; [exact C1|]); rewrite MX, XX; cbn [map fst fk fr_txt fr_break]; (split; [|exact I]); exists p'; (split; [exact C2|]);
      unfold kern_as; cbn [adjusted measured]; (split; [|exact C4]); [|exact C4].
    unfold adj_word, measured_word. cbn [w_boxes w_tail w_state flat_map]. rewrite !app_nil_r. exact C3.
Qed.
Lemma words_boxes_fk just ws : Forall flat ws -> Forall winv ws -> forall d x wd st sh l, kq al d x ws -> words_boxes just ws wd st sh = Ok l -> fk d x (map fst l).
Proof.
  induction 1 as [|w ws FW FL IH]; intros V d x wd st sh l K H; cbn [words_boxes] in H.
  - apply Ok_inj in H. subst. exact I.
  - apply bind_ok in H as ([[[l1 wd1] st1] sh1] & E1 & H). apply bind_ok in H as (l2 & E2 & H). apply Ok_inj in H. subst l. inversion V; subst. destruct K as ((p & P & K) & Kr).
    rewrite map_app. apply fk_app. split; [eapply word_boxes_fk; eauto|].
    destruct (word_boxes_makes _ _ _ _ _ _ _ _ _ FW E1) as ((M1 & _ & NE) & _). rewrite M1. destruct (map fst l1) eqn:EL; [congruence|]. eapply IH; eauto.
Qed.
Lemma line_words_kq fs ws d x : fk d x fs -> line_words fs = Ok ws -> kq al d x ws.
Proof.
  unfold line_words. intros K H. destruct (rev fs) as [|last ri] eqn:R; [discriminate|].
  assert (E : fs = rev ri ++ [last]) by (rewrite <- (rev_involutive fs), R; reflexivity). set (init := rev ri) in *. clearbody init. subst fs. clear R.
  apply fk_app in K as (K1 & K2). cbn [fk] in K2. destruct K2 as ((p & P & T & Bk) & _).
  assert (B : forall i d x, fk d x i -> kq al d x (map (fun f => with_cmd (fr_txt f) (fr_cmd f)) i) /\ measured_all (map (fun f => with_cmd (fr_txt f) (fr_cmd f)) i) = measured_all (map fr_txt i)).
  { clear. induction i as [|f i IH]; intros d x K; [split; [exact I|reflexivity]|]. destruct K as ((p & P & K & _) & Kr). cbn [map kq]. unfold measured_all. cbn [flat_map].
    destruct (with_cmd_adj' (fr_txt f) (fr_cmd f)) as (_ & M). rewrite M. destruct (IH _ _ Kr) as (I1 & I2). split; [split|].
    - exists p. split; [exact P|]. apply kern_as_cmd, K.
    - exact I1.
    - f_equal. exact I2. }
  destruct (B _ _ _ K1) as (B1 & B2). set (body := map (fun f => with_cmd (fr_txt f) (fr_cmd f)) init) in *.
  assert (XX : match body with [] => x | _ => 0%Qc end = match init with [] => x | _ => 0%Qc end) by (unfold body; destruct init; reflexivity).
  clearbody body. destruct (fr_break last) as [tail|].
  - apply Ok_inj in H. subst ws. apply kq_app. split; [exact B1|]. rewrite B2, XX. split; [|exact I]. exists p. split; [exact P|]. apply kern_as_cmd, Bk.
  - destruct (rev body) as [|y r] eqn:RB; apply Ok_inj in H; subst ws; [exact I|].
    assert (EB : body = rev r ++ [y]) by (rewrite <- (rev_involutive body), RB; reflexivity). rewrite EB in B1. apply kq_app in B1 as (B3 & B4). apply kq_app. split; [exact B3|].
    destruct B4 as ((p' & P' & B4) & _). split; [|exact I]. exists p'. split; [exact P'|]. apply kern_as_cmd, B4.
Qed.
Lemma rows_kq boxes width ragged t k i fs ls : rows boxes width ragged t k i fs ls -> Forall good_frag fs -> forall d x, fk d x fs ->
  forall before l after, ls = before ++ l :: after ->
  exists fa sl fb ws adj, fs = fa ++ sl ++ fb /\ (fa = [] <-> before = []) /\ line_words sl = Ok ws
    /\ (if ragged then ol_words l = ws else oline_stretch (mkOLine ws (ol_width l)) adj = Ok l)
    /\ is_line_of (measured_all (map fr_txt sl)) (measured_all ws)
    /\ kq al (last_of d (measured_all (map fr_txt fa))) (match fa with [] => x | _ => 0%Qc end) ws.
Proof.
  induction 1 as [k i sl l q adj NE LE LR EA LT (ws & LW & ML) RC|k i sl rest l ls q NE NR LR LT WI (ws & LW & ML) RC R IH]; intros G d x K before l1 after E.
  - destruct before as [|b0 [|b1 before]]; try discriminate. cbn [app] in E. injection E as <- <-. exists [], sl, [], ws, adj. rewrite app_nil_r. split; [reflexivity|].
    split; [tauto|]. split; [exact LW|]. split; [exact ML|]. split; [apply (line_words_spec _ _ G LW)|]. eapply line_words_kq; eauto.
  - apply Forall_app in G as (G1 & G2). apply fk_app in K as (K1 & K2). destruct before as [|b0 before].
    + cbn [app] in E. injection E as <- <-. exists [], sl, rest, ws, q. split; [reflexivity|]. split; [tauto|]. split; [exact LW|]. split; [exact ML|]. split; [apply (line_words_spec _ _ G1 LW)|]. eapply line_words_kq; eauto.
    + cbn [app] in E. injection E as <- E. destruct (IH G2 _ _ K2 _ _ _ E) as (fa & sl' & fb & ws' & adj & E1 & E2 & E3 & E4 & E5 & E6).
      exists (sl ++ fa), sl', fb, ws', adj. split; [rewrite E1, <- app_assoc; reflexivity|]. split; [split; [intros Z; apply app_eq_nil in Z as [Z _]; contradiction|discriminate]|].
      split; [exact E3|]. split; [exact E4|]. split; [exact E5|]. rewrite map_app, measured_all_app, last_of_app.
      destruct sl as [|s0 sl]; [congruence|]. cbn [app]. destruct fa; exact E6.
Qed.
End Frags.
End Kern.
