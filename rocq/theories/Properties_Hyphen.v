(** * Properties C27, C28: hyphenation functions *)
From Coq Require Import Sorted String.
From Verif Require Import Base Num Fonts State Words WordsSpec Hyphen.
Local Open Scope list_scope.
Open Scope nat_scope.

(** ** lengths *)
Lemma raise_at_length p i v q : raise_at p i v = Ok q -> List.length q = List.length p.
Proof.
  revert i q; induction p as [|x p IH]; intros [|i] q E; cbn in E; try discriminate.
  - apply Ok_inj in E. subst. reflexivity.
  - apply bind_ok in E as (r & E1 & E). apply Ok_inj in E. subst. cbn. f_equal. eauto.
Qed.
Lemma raise_at_ok p i v : i < List.length p -> exists q, raise_at p i v = Ok q.
Proof.
  revert i; induction p as [|x p IH]; intros [|i] H; cbn in *; try lia; [eauto|].
  destruct (IH i) as [q ->]; [lia|]. cbn. eauto.
Qed.
Lemma raise_all_ok v : forall p i, i + List.length v <= List.length p ->
  exists q, raise_all p i v = Ok q /\ List.length q = List.length p.
Proof.
  induction v as [|x v IH]; intros p i H; cbn in *; [eauto|].
  destruct (raise_at_ok p i x) as [q E]; [lia|]. rewrite E. cbn.
  apply raise_at_length in E. rewrite <- E. apply IH. lia.
Qed.

(** all points stored in the tree below depth [d] have at most depth + 1 entries *)
Inductive deep : nat -> trie -> Prop :=
| deep_node d p ch :
    (forall l, p = Some l -> List.length l <= S d) ->
    Forall (fun e => deep (S d) (snd e)) ch -> deep d (Node p ch).
Lemma child_deep d ch c t : Forall (fun e => deep (S d) (snd e)) ch -> child c ch = Some t -> deep (S d) t.
Proof.
  induction 1 as [|[x u] ch Hu _ IH]; cbn; [discriminate|]. destruct (c =? x)%N; auto.
  intros E. injection E as <-. exact Hu.
Qed.
Lemma set_child_deep d c t ch : deep (S d) t -> Forall (fun e => deep (S d) (snd e)) ch ->
  Forall (fun e => deep (S d) (snd e)) (set_child c t ch).
Proof.
  intros Ht. induction 1 as [|[x u] ch Hu Hch IH]; cbn; [repeat constructor; exact Ht|].
  destruct (c =? x)%N; constructor; auto.
Qed.
Lemma deep_empty d : deep d t_empty.
Proof. constructor; [discriminate|constructor]. Qed.
Lemma insert_deep cs pts : forall d t, List.length pts <= S (d + List.length cs) -> deep d t ->
  deep d (insert cs pts t).
Proof.
  induction cs as [|c cs IH]; intros d t HL H; destruct H as [d p ch HP HC]; cbn.
  - constructor; auto. intros l E. injection E as <-. cbn in HL. lia.
  - constructor; auto. apply set_child_deep; auto. apply IH; [cbn in HL; lia|].
    destruct (child c ch) eqn:E; [eapply child_deep; eauto|apply deep_empty].
Qed.
Lemma re_split_length sep s : List.length (re_split sep s) = S (List.length (filter sep s)).
Proof.
  induction s as [|c s IH]; cbn; auto. destruct (sep c); cbn; [rewrite IH; reflexivity|].
  destruct (re_split sep s); cbn in *; lia.
Qed.
Lemma mapM_length {A B} (f : A -> res B) l r : mapM f l = Ok r -> List.length r = List.length l.
Proof.
  revert r; induction l as [|x l IH]; cbn; intros r E.
  - apply Ok_inj in E. subst. reflexivity.
  - apply bind_ok in E as (y & _ & E). apply bind_ok in E as (ys & E1 & E). apply Ok_inj in E. subst.
    cbn. f_equal. auto.
Qed.
Lemma pattern_length p pts : pattern_points p = Ok pts -> List.length pts <= S (List.length (pattern_chars p)).
Proof.
  unfold pattern_points. intros E. apply mapM_length in E. rewrite E, re_split_length.
  apply le_n_S. unfold pattern_chars. clear. induction p as [|c p IH]; cbn; auto.
  destruct (is_digit c) eqn:D; cbn.
  - assert (is_dot c || is_az c = false) as -> by (unfold is_digit, is_dot, is_az in *; lia). exact IH.
  - destruct (is_dot c || is_az c); cbn; lia.
Qed.
Lemma insert_patterns_deep ps : forall t t', insert_patterns ps t = Ok t' -> deep 0 t -> deep 0 t'.
Proof.
  induction ps as [|p ps IH]; cbn; intros t t' E H.
  - apply Ok_inj in E. subst. exact H.
  - apply bind_ok in E as (t1 & E1 & E). eapply IH; eauto. unfold insert_pattern in E1.
    apply bind_ok in E1 as (pts & E2 & E1). apply Ok_inj in E1. subst. apply insert_deep; auto.
    apply pattern_length. exact E2.
Qed.
Lemma walk_ok s : forall d t i p, deep d t -> i + d + List.length s < List.length p ->
  exists q, walk t s i p = Ok q /\ List.length q = List.length p.
Proof.
  induction s as [|c s IH]; intros d t i p H HL; cbn; [eauto|].
  destruct H as [d p0 ch HP HC]. cbn. destruct (child c ch) as [t'|] eqn:E; [|eauto].
  pose proof (child_deep _ _ _ _ HC E) as D. cbn in HL.
  assert (X : exists q, match t_points t' with Some p1 => raise_all p i p1 | None => Ok p end = Ok q
                        /\ List.length q = List.length p).
  { inversion D; subst. cbn. destruct p1 as [l|]; [|eauto]. apply raise_all_ok.
    specialize (H l eq_refl). lia. }
  destruct X as (q & -> & L). cbn. rewrite <- L. eapply IH; [exact D|lia].
Qed.
Lemma walks_ok t s : deep 0 t -> forall i p, i + List.length s < List.length p ->
  exists q, walks t s i p = Ok q /\ List.length q = List.length p.
Proof.
  intros D. induction s as [|c s IH]; intros i p HL; cbn [walks]; [eauto|].
  destruct (walk_ok (c :: s) 0 t i p D) as (q & -> & L); [lia|]. cbn [bind].
  rewrite <- L. apply IH. cbn in HL. lia.
Qed.
Lemma zero_at_length p i : List.length (zero_at p i) = List.length p.
Proof. revert i; induction p; intros [|i]; cbn; auto. Qed.
Lemma zero_at_nth p i j : nth j (zero_at p i) 0 = if i =? j then 0 else nth j p 0.
Proof.
  revert i j; induction p as [|x p IH]; intros [|i] [|j]; cbn; auto.
  destruct (i =? j); reflexivity.
Qed.
Lemma zero_ends_length p : List.length (zero_ends p) = List.length p.
Proof. unfold zero_ends. rewrite !zero_at_length. reflexivity. Qed.
Lemma zero_ends_nth p j : j = 1 \/ j = 2 \/ j = List.length p - 2 \/ j = List.length p - 3 ->
  nth j (zero_ends p) 0 = 0.
Proof.
  intros H. unfold zero_ends. rewrite !zero_at_nth.
  repeat match goal with |- context [if ?b then _ else _] => destruct b eqn:? end; auto; lia.
Qed.

(** ** pieces *)
Lemma pieces_concat w : forall cur pts, List.length w <= List.length pts -> concat (pieces cur w pts) = cur ++ w.
Proof.
  induction w as [|c w IH]; intros cur [|p pts] HL; cbn in *; try lia; try (rewrite app_nil_r; reflexivity).
  destruct (Nat.odd p); cbn.
  - rewrite IH by lia. rewrite <- app_assoc. reflexivity.
  - rewrite IH by lia. rewrite <- app_assoc. reflexivity.
Qed.
Lemma pieces_nonnil cur w pts : pieces cur w pts <> [].
Proof.
  revert cur pts; induction w as [|c w IH]; intros cur [|p pts]; cbn; try congruence.
  destruct (Nat.odd p); [congruence|apply IH].
Qed.
Lemma pieces_nonempty w : forall cur pts, List.length w <= List.length pts ->
  (cur = [] -> w <> []) -> Nat.odd (nth (List.length w - 1) pts 0) = false \/ w = [] ->
  Forall (fun p => p <> []) (pieces cur w pts).
Proof.
  induction w as [|c w IH]; intros cur [|p pts] HL HC HO; cbn in HL; try lia; cbn [pieces].
  - constructor; [|constructor]. intros ->. apply HC; auto.
  - constructor; [|constructor]. intros ->. apply HC; auto.
  - destruct HO as [HO|]; [|congruence]. cbn [List.length] in HO. replace (S (List.length w) - 1) with (List.length w) in HO by lia.
    assert (HO' : Nat.odd (nth (List.length w - 1) pts 0) = false \/ w = []).
    { destruct w as [|d w]; [auto|]. left. cbn [List.length] in *. cbn [nth] in HO.
      replace (S (List.length w) - 1) with (List.length w) by lia. exact HO. }
    destruct (Nat.odd p) eqn:P.
    + constructor; [destruct cur; discriminate|]. apply IH; [lia| |exact HO'].
      intros _ ->. cbn in HO. congruence.
    + apply IH; [lia|destruct cur; discriminate|exact HO'].
Qed.
Lemma pieces_first w : forall pts, 2 <= List.length w -> List.length w <= List.length pts ->
  Nat.odd (nth 0 pts 0) = false -> 2 <= List.length (hd [] (pieces [] w pts)).
Proof.
  intros pts H1 H2 HO. destruct w as [|c [|d w]]; cbn in H1; try lia.
  destruct pts as [|p [|q pts]]; cbn in H2; try lia. cbn [nth] in HO. cbn [pieces]. rewrite HO.
  assert (G : forall w cur pts, 2 <= List.length cur -> 2 <= List.length (hd [] (pieces cur w pts))).
  { clear. induction w as [|c w IH]; intros cur [|p pts] H; cbn; auto.
    destruct (Nat.odd p); cbn; rewrite ?app_length; cbn; [lia|]. apply IH. rewrite app_length. cbn. lia. }
  cbn [app]. destruct (Nat.odd q); cbn [hd List.length]; [lia|]. apply G. cbn. lia.
Qed.
Lemma pieces_last w : forall cur pts, 2 <= List.length w -> List.length w <= List.length pts ->
  Nat.odd (nth (List.length w - 1) pts 0) = false -> Nat.odd (nth (List.length w - 2) pts 0) = false ->
  2 <= List.length (List.last (pieces cur w pts) []).
Proof.
  induction w as [|c w IH]; intros cur [|p pts] H1 H2 HO1 HO2; cbn in H1, H2; try lia.
  cbn [List.length] in HO1, HO2.
  replace (S (List.length w) - 1) with (List.length w) in HO1 by lia.
  replace (S (List.length w) - 2) with (List.length w - 1) in HO2 by lia.
  destruct w as [|d [|e w]]; [cbn in H1; lia| |].
  - destruct pts as [|q pts]; [cbn in H2; lia|]. cbn in HO1, HO2. cbn [pieces]. rewrite HO2.
    rewrite HO1. cbn. destruct pts; cbn; rewrite !app_length; cbn; lia.
  - assert (A1 : Nat.odd (nth (List.length (d :: e :: w) - 1) pts 0) = false).
    { cbn [List.length nth] in *. replace (S (S (List.length w)) - 1) with (S (List.length w)) by lia. exact HO1. }
    assert (A2 : Nat.odd (nth (List.length (d :: e :: w) - 2) pts 0) = false).
    { cbn [List.length nth] in *. replace (S (S (List.length w)) - 1) with (S (List.length w)) in HO2 by lia.
      cbn [nth] in HO2. replace (S (S (List.length w)) - 2) with (List.length w) by lia. exact HO2. }
    cbn [pieces]. fold pieces. destruct (Nat.odd p).
    + specialize (IH [] pts ltac:(cbn; lia) ltac:(cbn in *; lia) A1 A2).
      pose proof (pieces_nonnil [] (d :: e :: w) pts) as N.
      change (2 <= List.length (List.last ((cur ++ [c]) :: pieces [] (d :: e :: w) pts) [])).
      destruct (pieces [] (d :: e :: w) pts); [congruence|exact IH].
    + apply (IH (cur ++ [c]) pts); auto; cbn in *; lia.
Qed.

(** ** exceptions *)
Lemma str_eqb_eq a b : str_eqb a b = true <-> a = b.
Proof. unfold str_eqb. destruct (list_eq_dec N.eq_dec a b); split; congruence. Qed.
Definition az_dash (ex : str) : Prop := Forall (fun c => is_az c = true \/ c = 45%N) ex.
Lemma exc_points_length ex : az_dash ex -> List.length (exc_points ex) = 2 + List.length (exc_word ex).
Proof.
  intros H. unfold exc_points. cbn. rewrite map_length, re_split_length. f_equal. f_equal.
  unfold exc_word. induction H as [|c ex Hc _ IH]; cbn; auto.
  destruct Hc as [Hc| ->].
  - rewrite Hc. assert (is_dash c = false) as -> by (unfold is_dash, is_az in *; lia). cbn. congruence.
  - cbn. exact IH.
Qed.
Lemma nth_map' {A B} (f : A -> B) l i d e : i < List.length l -> nth i (map f l) e = f (nth i l d).
Proof. revert i; induction l; intros [|i] H; cbn in *; try lia; auto. apply IHl. lia. Qed.
(** the text after the last letter of an exception *)
Lemma re_split_last sep s : exists a, s = a ++ List.last (re_split sep s) []
  /\ (List.length (re_split sep s) = 1 -> a = []).
Proof.
  induction s as [|c s (a & IH & IA)]; cbn; [exists []; auto|].
  pose proof (re_split_length sep s) as L. destruct (sep c).
  - exists (c :: a). destruct (re_split sep s) as [|x l]; [cbn in L; lia|]. split.
    + cbn [app]. f_equal. exact IH.
    + cbn. discriminate.
  - destruct (re_split sep s) as [|x [|y l]]; [cbn in L; lia| |].
    + exists []. split; auto. cbn in *. rewrite IA in IH by reflexivity. cbn in IH. congruence.
    + exists (c :: a). split; [|cbn; discriminate]. cbn [app]. f_equal. exact IH.
Qed.
Definition ends_dash (ex : str) : Prop := List.last ex 0%N = 45%N.
Lemma nth_last {A} (l : list A) d : nth (List.length l - 1) l d = List.last l d.
Proof. induction l as [|x [|y l] IH]; auto. cbn [List.length] in *. replace (S (S (List.length l)) - 1) with (S (List.length l)) by lia.
  replace (S (List.length l) - 1) with (List.length l) in IH by lia. exact IH. Qed.
Lemma last_map {A B} (f : A -> B) l d e : l <> [] -> List.last (map f l) e = f (List.last l d).
Proof. induction l as [|x [|y l] IH]; intros H; [congruence|reflexivity|]. cbn in *. apply IH. discriminate. Qed.
Lemma exc_points_last ex : ~ ends_dash ex -> List.last (exc_points ex) 0 = 0.
Proof.
  intros H. unfold exc_points. pose proof (re_split_length is_az ex) as L.
  assert (N : re_split is_az ex <> []) by (intros E; rewrite E in L; cbn in L; lia).
  set (f := fun h => if str_eqb h [45%N] then 1 else 0).
  change (List.last (0 :: map f (re_split is_az ex)) 0 = 0).
  assert (E : List.last (0 :: map f (re_split is_az ex)) 0 = List.last (map f (re_split is_az ex)) 0)
    by (destruct (re_split is_az ex); [congruence|reflexivity]).
  rewrite E, (last_map f _ []) by exact N.
  unfold f. destruct (str_eqb _ _) eqn:S; auto. exfalso. apply str_eqb_eq in S.
  destruct (re_split_last is_az ex) as (a & E1 & _). rewrite S in E1. apply H. unfold ends_dash.
  rewrite E1. apply last_last.
Qed.

(** ** C27 *)
(** A Hyphenator object built from any pattern and exception strings, the
    exceptions being words in the letters a-z with hyphens inside; any word whose
    length is not changed by lowercasing. *)
Section C27.
Variables (lower : str -> str) (patterns exceptions : list str) (h : hyph).
Hypothesis built : hyph_new patterns exceptions = Ok h.
Hypothesis exc_ok : Forall (fun ex => az_dash ex /\ ~ ends_dash ex) exceptions.

Lemma exception_in w p : exception h w = Some p ->
  List.length p = 2 + List.length w /\ List.last p 0 = 0.
Proof.
  unfold hyph_new in built. apply bind_ok in built as (t & _ & B). apply Ok_inj in B. subst h.
  unfold exception. cbn. destruct (find _ _) as [[k q]|] eqn:F; [|discriminate]. cbn. intros E. injection E as <-.
  apply find_some in F as [F1 F2]. cbn in F2. apply str_eqb_eq in F2. subst k.
  apply in_rev in F1. apply in_map_iff in F1 as (ex & E & I). injection E as <- <-.
  rewrite Forall_forall in exc_ok. apply exc_ok in I as [I1 I2].
  split; [apply exc_points_length, I1|apply exc_points_last, I2].
Qed.
Lemma points_ok w : List.length (lower w) = List.length w -> 4 < List.length w ->
  exists pts, hyphenate_word lower h w = Ok (pieces [] w pts)
    /\ List.length w <= List.length pts
    /\ Nat.odd (nth (List.length w - 1) pts 0) = false
    /\ (exception h (lower w) = None ->
        Nat.odd (nth 0 pts 0) = false /\ Nat.odd (nth (List.length w - 2) pts 0) = false).
Proof.
  intros HL HW. unfold hyphenate_word. replace (List.length w <=? 4) with false by lia.
  destruct (exception h (lower w)) as [p|] eqn:X.
  - apply exception_in in X as [X1 X2]. cbn [bind]. exists (skipn 2 p). split; [reflexivity|].
    rewrite skipn_length. split; [lia|]. split; [|discriminate].
    rewrite <- nth_last, X1, HL in X2.
    destruct p as [|a [|b p]]; [cbn in X1; lia|cbn in X1; lia|]. cbn [skipn].
    replace (2 + List.length w - 1) with (S (S (List.length w - 1))) in X2 by lia. cbn [nth] in X2.
    rewrite X2. reflexivity.
  - assert (D : deep 0 (h_tree h)).
    { unfold hyph_new in built. apply bind_ok in built as (t & B1 & B). apply Ok_inj in B. subst h. cbn.
      eapply insert_patterns_deep; [exact B1|apply deep_empty]. }
    set (work := 46%N :: lower w ++ [46%N]).
    assert (LW : List.length work = S (S (List.length w))) by (cbn; rewrite app_length; cbn; lia).
    destruct (walks_ok (h_tree h) work D 0 (repeat 0 (S (List.length work)))) as (q & E & L).
    { rewrite repeat_length. lia. }
    rewrite repeat_length in L.
    cbv zeta. rewrite E. cbn [bind]. exists (skipn 2 (zero_ends q)). split; [reflexivity|].
    rewrite skipn_length, zero_ends_length. split; [lia|].
    assert (NS : forall i, nth i (skipn 2 (zero_ends q)) 0 = nth (S (S i)) (zero_ends q) 0).
    { intros i. destruct (zero_ends q) as [|a [|b z]]; cbn [skipn nth]; auto; destruct i; reflexivity. }
    rewrite !NS. split; [|intros _; split].
    + rewrite zero_ends_nth; [reflexivity|lia].
    + rewrite zero_ends_nth; [reflexivity|lia].
    + rewrite zero_ends_nth; [reflexivity|lia].
Qed.
End C27.

Theorem C27_partitions : forall (lower : str -> str) (patterns exceptions : list str) (h : hyph) (w : str),
  hyph_new patterns exceptions = Ok h ->
  Forall (fun ex => az_dash ex /\ ~ ends_dash ex) exceptions ->
  List.length (lower w) = List.length w -> w <> [] ->
  exists parts, hyphenate_word lower h w = Ok parts
    /\ concat parts = w /\ Forall (fun p => p <> []) parts.
Proof.
  intros lower patterns exceptions h w B X HL N.
  destruct (le_lt_dec (List.length w) 4) as [L|L].
  - exists [w]. unfold hyphenate_word. replace (List.length w <=? 4) with true by lia.
    split; [reflexivity|]. split; [apply app_nil_r|repeat constructor; exact N].
  - destruct (points_ok lower patterns exceptions h B X w HL L) as (pts & E & L1 & O & _).
    exists (pieces [] w pts). split; [exact E|]. split; [apply pieces_concat, L1|].
    apply pieces_nonempty; auto.
Qed.
Print Assumptions C27_partitions.
(** In the terms of C24-C26: the hyphenator qualifies. *)
Theorem C27_splits : forall (lower : str -> str) (patterns exceptions : list str) (h : hyph),
  hyph_new patterns exceptions = Ok h ->
  Forall (fun ex => az_dash ex /\ ~ ends_dash ex) exceptions ->
  (forall w, List.length (lower w) = List.length w) ->
  splits (fun w => match hyphenate_word lower h w with Ok parts => parts | Err _ => [] end).
Proof.
  intros lower patterns exceptions h B X HL w N.
  destruct (C27_partitions lower patterns exceptions h w B X (HL w) N) as (parts & -> & H). exact H.
Qed.
Print Assumptions C27_splits.
Theorem C27_short_words : forall (lower : str -> str) (h : hyph) (w : str),
  List.length w <= 4 -> hyphenate_word lower h w = Ok [w].
Proof. intros lower h w L. unfold hyphenate_word. replace (List.length w <=? 4) with true by lia. reflexivity. Qed.
Print Assumptions C27_short_words.
Theorem C27_two_letters : forall (lower : str -> str) (patterns exceptions : list str) (h : hyph) (w : str),
  hyph_new patterns exceptions = Ok h ->
  List.length (lower w) = List.length w -> 2 <= List.length w ->
  ~ In (lower w) (map exc_word exceptions) ->
  exists parts, hyphenate_word lower h w = Ok parts
    /\ 2 <= List.length (hd [] parts) /\ 2 <= List.length (List.last parts []).
Proof.
  intros lower patterns exceptions h w B HL N X.
  destruct (le_lt_dec (List.length w) 4) as [L|L].
  - exists [w]. rewrite C27_short_words by exact L. split; [reflexivity|]. cbn. auto.
  - assert (EX : exception h (lower w) = None).
    { unfold hyph_new in B. apply bind_ok in B as (t & _ & B). apply Ok_inj in B. subst h.
      unfold exception. cbn. destruct (find _ _) as [[k q]|] eqn:F; [|reflexivity]. exfalso.
      apply find_some in F as [F1 F2]. cbn in F2. apply str_eqb_eq in F2. subst k.
      apply in_rev in F1. apply in_map_iff in F1 as (ex & E & I). injection E as E _.
      apply X. rewrite <- E. apply in_map, I. }
    (* the exceptions play no role: use an object without them *)
    assert (B' : hyph_new patterns [] = Ok (mkHyph (h_tree h) [])).
    { unfold hyph_new in *. apply bind_ok in B as (t & E & B). apply Ok_inj in B. subst h. rewrite E. reflexivity. }
    destruct (points_ok lower patterns [] _ B' (Forall_nil _) w HL L) as (pts & E & L1 & O & K).
    destruct (K eq_refl) as [K1 K2].
    exists (pieces [] w pts). split.
    + rewrite <- E. unfold hyphenate_word. rewrite EX. cbn. reflexivity.
    + split; [apply pieces_first|apply pieces_last]; auto; lia.
Qed.
Print Assumptions C27_two_letters.

(** The real data, part of it: the model splits as the module's docstring says. *)
Definition ex_patterns : list str := map bs
  ["hy3ph"; "he2n"; "hena4"; "hen5at"; "1na"; "n2at"; "1tio"; "2io"; "o2n"; ".ach4"; "4ab."; "1ta"; "5ci"]%string.
Definition ex_exceptions : list str := map bs ["as-so-ciate"; "project"; "ta-ble"]%string.
Definition ascii_lower (w : str) : str := map (fun c => if ((65 <=? c) && (c <=? 90))%N then c + 32 else c)%N w.
Definition run_hyph (w : string) : res (list str) :=
  do h <- hyph_new ex_patterns ex_exceptions; hyphenate_word ascii_lower h (bs w).
Definition exc_okb (ex : str) : bool :=
  forallb (fun c => is_az c || (c =? 45)%N) ex && negb (List.last ex 0 =? 45)%N.
Lemma exc_okb_ok l : forallb exc_okb l = true -> Forall (fun ex => az_dash ex /\ ~ ends_dash ex) l.
Proof.
  intros H. rewrite forallb_forall in H. apply Forall_forall. intros ex I. apply H in I.
  unfold exc_okb in I. apply andb_true_iff in I as [I1 I2]. rewrite forallb_forall in I1. split.
  - apply Forall_forall. intros c C. apply I1 in C. apply orb_true_iff in C as [C|C]; auto.
    right. apply N.eqb_eq, C.
  - unfold ends_dash. intros C. rewrite C in I2. discriminate.
Qed.
Example C27_example :
  run_hyph "Hyphenation" = Ok (map bs ["Hy"; "phen"; "ation"]%string)
  /\ run_hyph "associate" = Ok (map bs ["as"; "so"; "ciate"]%string)
  /\ run_hyph "PROJECT" = Ok [bs "PROJECT"] /\ run_hyph "nana" = Ok [bs "nana"]
  /\ Forall (fun ex => az_dash ex /\ ~ ends_dash ex) ex_exceptions.
Proof.
  split; [vm_compute; reflexivity|]. split; [vm_compute; reflexivity|]. split; [vm_compute; reflexivity|].
  split; [vm_compute; reflexivity|].
  apply exc_okb_ok. vm_compute. reflexivity.
Qed.

(** When lowercasing lengthens the word ("\u0130".lower() has two characters) a part
    may be empty, on which Word.new raises IndexError. *)
Theorem C27_lowercase_refuted : exists (lower : str -> str) (patterns : list str) (h : hyph) (w : str),
  hyph_new patterns [] = Ok h /\ (forall c, 1 <= List.length (lower [c]) <= 2) /\
  (forall a b, lower (a ++ b) = lower a ++ lower b) /\
  exists parts, hyphenate_word lower h w = Ok parts /\ In [] parts.
Proof.
  exists (flat_map (fun c => if (c =? 304)%N then [105; 775]%N else [c])), [bs "a1a"].
  eexists _, ([304; 304]%N ++ bs "aaaa").
  split; [vm_compute; reflexivity|]. split; [|split].
  - intros c. cbn. destruct (c =? 304)%N; cbn; lia.
  - intros a b. apply flat_map_app.
  - eexists. split; [vm_compute; reflexivity|]. vm_compute. auto.
Qed.
Print Assumptions C27_lowercase_refuted.

(** ** C28 *)
Lemma cut_concat s pos : forall a, StronglySorted le pos -> Forall (fun b => a <= b) pos ->
  concat (cut_at s a pos) = skipn a s.
Proof.
  induction pos as [|b pos IH]; intros a HS HF; cbn; [apply app_nil_r|].
  apply StronglySorted_inv in HS as [HS HB]. inversion HF; subst.
  rewrite IH by assumption. unfold py_slice.
  rewrite <- (firstn_skipn (b - a) (skipn a s)) at 2. f_equal.
  clear -H1. revert b s H1. induction a as [|a IH]; intros b s H1; [rewrite Nat.sub_0_r; reflexivity|].
  destruct b as [|b]; [lia|]. destruct s; [cbn; rewrite skipn_nil; reflexivity|]. cbn. apply IH. lia.
Qed.
Theorem C28_pyphen_partitions : forall (pos : list nat) (w : str), StronglySorted le pos ->
  concat (pyphenate pos w) = w.
Proof.
  intros [|b pos] w H; [apply app_nil_r|]. unfold pyphenate. rewrite cut_concat; auto.
  apply Forall_forall. intros. lia.
Qed.
Print Assumptions C28_pyphen_partitions.
Theorem C28_no_positions : forall w, pyphenate [] w = [w].
Proof. reflexivity. Qed.
Print Assumptions C28_no_positions.
(** Strictly ascending positions inside the word give non-empty parts: together with
    the above, such a hyphenator meets the hypothesis of C24-C26. *)
Theorem C28_pyphen_nonempty : forall (pos : list nat) (w : str), w <> [] -> StronglySorted lt pos ->
  Forall (fun b => 0 < b < List.length w) pos -> Forall (fun p => p <> []) (pyphenate pos w).
Proof.
  assert (G : forall pos w a, a < List.length w -> StronglySorted lt pos ->
    Forall (fun b => a < b < List.length w) pos -> Forall (fun p => p <> []) (cut_at w a pos)).
  { induction pos as [|b pos IH]; intros w a HA HS HF; cbn.
    - constructor; [|constructor]. intros E. apply (f_equal (@List.length N)) in E. rewrite skipn_length in E. cbn in E. lia.
    - apply StronglySorted_inv in HS as [HS HB]. inversion HF as [|? ? H1 H2]; subst. constructor.
      + unfold py_slice. intros E. apply (f_equal (@List.length N)) in E. rewrite firstn_length, skipn_length in E. cbn in E. lia.
      + apply IH; auto; [lia|]. rewrite Forall_forall in *. intros x Hx. split; [apply HB, Hx|apply H2, Hx]. }
  intros pos w N HS HF. destruct pos as [|b pos]; [repeat constructor; exact N|].
  apply (G (b :: pos)); auto. destruct w; [congruence|cbn; lia].
Qed.
Print Assumptions C28_pyphen_nonempty.
Example C28_example : pyphenate [2; 6] (bs "hyphenation") = map bs ["hy"; "phen"; "ation"]%string.
Proof. reflexivity. Qed.
