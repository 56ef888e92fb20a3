(** * HyphenProofs: the vendored hyphenator runs Liang's algorithm *)
From Verif Require Import Base Num Fonts State Words WordsSpec Hyphen Properties_Hyphen HyphenSpec.
Open Scope nat_scope.

(** ** the tree *)
Fixpoint find_t (t : trie) (cs : str) : option (list nat) :=
  match cs with
  | [] => t_points t
  | c :: r => match child c (t_children t) with Some u => find_t u r | None => None end
  end.
Lemma find_empty cs : find_t t_empty cs = None.
Proof. destruct cs; reflexivity. Qed.
Lemma child_set c d t l : child d (set_child c t l) = if (d =? c)%N then Some t else child d l.
Proof.
  induction l as [|[e u] l IH]; cbn [set_child child]; [reflexivity|].
  destruct (N.eqb_spec c e) as [->|NE]; cbn [child].
  - destruct (d =? e)%N eqn:E; reflexivity.
  - destruct (N.eqb_spec d e) as [->|ND]; [|exact IH]. replace (e =? c)%N with false by lia. reflexivity.
Qed.
Lemma find_insert cs pts : forall t ds, find_t (insert cs pts t) ds = if str_eqb ds cs then Some pts else find_t t ds.
Proof.
  induction cs as [|c cs IH]; intros t ds; destruct ds as [|d ds]; cbn [insert find_t t_points t_children]; try reflexivity.
  rewrite child_set. destruct (N.eqb_spec d c) as [->|NE].
  - rewrite IH. unfold str_eqb. destruct (list_eq_dec N.eq_dec ds cs) as [->|NE].
    + destruct (list_eq_dec N.eq_dec (c :: cs) (c :: cs)); congruence.
    + destruct (list_eq_dec N.eq_dec (c :: ds) (c :: cs)) as [E|_]; [congruence|].
      destruct (child c (t_children t)); [reflexivity|apply find_empty].
  - unfold str_eqb. destruct (list_eq_dec N.eq_dec (d :: ds) (c :: cs)) as [E|_]; [congruence|]. reflexivity.
Qed.

(** ** patterns *)
Lemma is_digit_spec c : is_digit c = true <-> digit c.
Proof. unfold is_digit, digit. lia. Qed.
Lemma letter_sep c : letter c -> is_dot c || is_az c = true /\ is_digit c = false.
Proof. unfold letter, is_dot, is_az, is_digit. lia. Qed.
Lemma digit_sep c : digit c -> is_dot c || is_az c = false /\ is_digit c = true.
Proof. unfold digit, is_dot, is_az, is_digit. lia. Qed.
Lemma filter_digits d : Forall digit d -> filter (fun c => negb (is_digit c)) d = [].
Proof. induction 1 as [|c d H _ IH]; [reflexivity|]. cbn. rewrite (proj2 (digit_sep c H)). exact IH. Qed.
Lemma pattern_chars_pat p : well_formed p -> pattern_chars (pat_str p) = pat_letters p.
Proof.
  intros [H1 H2]. unfold pattern_chars, pat_str, pat_letters. rewrite filter_app, (filter_digits _ H1). cbn [app].
  induction H2 as [|[c d] l [L D] _ IH]; [reflexivity|]. cbn [flat_map map fst snd app filter].
  cbn [fst snd] in *. rewrite (proj2 (letter_sep c L)). cbn [negb]. f_equal. rewrite filter_app, (filter_digits _ D). exact IH.
Qed.
Lemma re_split_digits d r : Forall digit d -> re_split (fun c => is_dot c || is_az c) (d ++ r)
  = match re_split (fun c => is_dot c || is_az c) r with x :: xs => (d ++ x) :: xs | [] => [d] end.
Proof.
  induction 1 as [|c d H _ IH]; cbn [app re_split].
  - pose proof (re_split_length (fun c => is_dot c || is_az c) r) as L. destruct (re_split _ r); [discriminate L|reflexivity].
  - rewrite (proj1 (digit_sep c H)), IH. destruct (re_split _ r); reflexivity.
Qed.
Lemma decimal_fold d : Forall digit d -> forall a b, N.to_nat a = b -> N.to_nat (fold_left (fun a c => 10 * a + (c - 48))%N d a) = decimal b d.
Proof. induction 1 as [|c d H _ IH]; intros a b E; cbn [fold_left decimal]; [exact E|]. apply IH. lia. Qed.
Lemma int_or_0_digits d : Forall digit d -> int_or_0 d = Ok (decimal 0 d).
Proof.
  intros H. unfold int_or_0. assert (X : forallb is_digit d = true).
  { apply forallb_forall. intros c I. apply is_digit_spec. rewrite Forall_forall in H. auto. }
  rewrite X. f_equal. apply decimal_fold; auto.
Qed.
Lemma pattern_points_pat p : well_formed p -> pattern_points (pat_str p) = Ok (pat_values p).
Proof.
  intros [H1 H2]. unfold pattern_points, pat_str, pat_values. rewrite (re_split_digits _ _ H1).
  assert (G : re_split (fun c => is_dot c || is_az c) (flat_map (fun x => fst x :: snd x) (p_rest p)) = [] :: map snd (p_rest p)).
  { clear H1. induction H2 as [|[c d] l [L D] _ IH]; [reflexivity|]. cbn [flat_map map fst snd app re_split] in *.
    rewrite (proj1 (letter_sep c L)), (re_split_digits _ _ D), IH, app_nil_r. reflexivity. }
  rewrite G, app_nil_r. cbn [mapM]. rewrite (int_or_0_digits _ H1). cbn [bind].
  assert (M : mapM int_or_0 (map snd (p_rest p)) = Ok (map (fun x => decimal 0 (snd x)) (p_rest p))).
  { clear -H2. induction H2 as [|[c d] l [L D] _ IH]; [reflexivity|]. cbn [map mapM snd] in *. rewrite (int_or_0_digits _ D). cbn [bind]. rewrite IH. reflexivity. }
  rewrite M. reflexivity.
Qed.
(** the entry of the tree: the last pattern with these letters *)
Fixpoint last_pat (ps : list pattern) (cs : str) : option pattern :=
  match ps with
  | [] => None
  | p :: r => match last_pat r cs with Some q => Some q | None => if str_eqb cs (pat_letters p) then Some p else None end
  end.
Lemma insert_patterns_find ps : Forall well_formed ps -> forall t, exists t', insert_patterns (map pat_str ps) t = Ok t'
  /\ forall cs, find_t t' cs = match last_pat ps cs with Some p => Some (pat_values p) | None => find_t t cs end.
Proof.
  induction 1 as [|p ps W _ IH]; intros t; cbn [map insert_patterns last_pat]; [eauto|].
  unfold insert_pattern. rewrite (pattern_points_pat _ W), (pattern_chars_pat _ W). cbn [bind].
  destruct (IH (insert (pat_letters p) (pat_values p) t)) as (t' & E & F). exists t'. split; [exact E|]. intros cs. rewrite F.
  destruct (last_pat ps cs); [reflexivity|]. rewrite find_insert. destruct (str_eqb cs (pat_letters p)); reflexivity.
Qed.
Lemma last_pat_spec ps cs p : last_pat ps cs = Some p <->
  exists before after, ps = before ++ p :: after /\ pat_letters p = cs /\ ~ In cs (map pat_letters after).
Proof.
  assert (NN : forall ps, last_pat ps cs = None <-> ~ In cs (map pat_letters ps)).
  { clear. induction ps as [|q ps IH]; cbn [last_pat map In]; [split; auto|]. destruct (last_pat ps cs) as [r|] eqn:E.
    - split; [discriminate|]. intros N. assert (~ In cs (map pat_letters ps)) as X by tauto. apply IH in X. discriminate.
    - unfold str_eqb. destruct (list_eq_dec N.eq_dec cs (pat_letters q)) as [->|NE]; [split; [discriminate|tauto]|].
      split; [|reflexivity]. intros _ [X|X]; [congruence|]. apply IH in X; auto. }
  revert p. induction ps as [|q ps IH]; intros p; cbn [last_pat].
  - split; [discriminate|]. intros (b & a & E & _). destruct b; discriminate.
  - destruct (last_pat ps cs) as [r|] eqn:E.
    + rewrite IH. split.
      * intros (b & a & -> & H). exists (q :: b), a. auto.
      * intros (b & a & EQ & H1 & H2). destruct b as [|x b]; injection EQ as -> ->; [|eauto].
        exfalso. apply NN in H2. congruence.
    + unfold str_eqb. destruct (list_eq_dec N.eq_dec cs (pat_letters q)) as [->|NE].
      * split.
        -- intros X. injection X as <-. exists [], ps. split; [reflexivity|]. split; [reflexivity|]. apply NN. exact E.
        -- intros (b & a & EQ & H1 & H2). destruct b as [|x b]; injection EQ as -> ->; [reflexivity|].
           exfalso. apply NN in E. apply E. rewrite map_app. apply in_or_app. right. left. exact H1.
      * split; [discriminate|]. intros (b & a & EQ & H1 & H2). destruct b as [|x b]; injection EQ as -> ->; [congruence|].
        exfalso. apply NN in E. apply E. rewrite map_app. apply in_or_app. right. left. exact H1.
Qed.

(** ** the values *)
(** [q] is [p] raised to the highest of the values [C] proposes *)
Definition raised (C : nat -> nat -> Prop) (p q : list nat) : Prop :=
  forall k, nth k p 0 <= nth k q 0 /\ (forall x, C k x -> x <= nth k q 0) /\ (nth k q 0 = nth k p 0 \/ C k (nth k q 0)).
Lemma raised_refl C p : (forall k x, ~ C k x) -> raised C p p.
Proof. intros H k. split; [lia|]. split; [intros x X; destruct (H k x X)|auto]. Qed.
Lemma raised_trans C1 C2 C p q r : raised C1 p q -> raised C2 q r -> (forall k x, C k x <-> C1 k x \/ C2 k x) -> raised C p r.
Proof.
  intros H1 H2 H k. destruct (H1 k) as (A1 & A2 & A3), (H2 k) as (B1 & B2 & B3). split; [lia|]. split.
  - intros x X. apply H in X as [X|X]; [apply A2 in X; lia|apply B2, X].
  - destruct B3 as [->|B3]; [|right; apply H; auto]. destruct A3 as [->|A3]; [auto|right; apply H; auto].
Qed.
Lemma raise_at_raised v : forall p i q, raise_at p i v = Ok q -> raised (fun k x => k = i /\ x = v) p q.
Proof.
  induction p as [|y p IH]; intros i q E; [destruct i; discriminate|]. destruct i as [|i]; cbn [raise_at] in E.
  - apply Ok_inj in E. subst q. intros [|k]; cbn [nth]; [|split; [lia|split; [intros x [? ?]; lia|auto]]].
    split; [lia|]. split; [intros x [_ ->]; lia|]. lia.
  - apply bind_ok in E as (r & E & E'). apply Ok_inj in E'. subst q. intros [|k]; cbn [nth].
    + split; [lia|]. split; [intros x [? _]; lia|auto].
    + destruct (IH _ _ E k) as (A & B & C). split; [exact A|]. split; [intros x [H ->]; apply B; split; [lia|reflexivity]|].
      destruct C as [->|[C1 C2]]; [auto|]. right. split; [lia|exact C2].
Qed.
Lemma raise_all_raised v : forall p i q, raise_all p i v = Ok q -> raised (fun k x => i <= k /\ nth_error v (k - i) = Some x) p q.
Proof.
  induction v as [|y v IH]; intros p i q E; cbn [raise_all] in E.
  - apply Ok_inj in E. subst q. apply raised_refl. intros k x [_ H]. destruct (k - i); discriminate.
  - apply bind_ok in E as (r & E1 & E2). eapply raised_trans; [apply raise_at_raised, E1|apply IH, E2|].
    intros k x. cbn beta. split.
    + intros [L H]. destruct (Nat.eq_dec k i) as [->|NE]; [rewrite Nat.sub_diag in H; injection H as <-; auto|].
      right. split; [lia|]. replace (k - i) with (S (k - S i)) in H by lia. exact H.
    + intros [[-> ->]|[L H]]; [rewrite Nat.sub_diag; auto|]. split; [lia|]. replace (k - i) with (S (k - S i)) by lia. exact H.
Qed.
Lemma walk_raised s : forall t i p q, walk t s i p = Ok q ->
  raised (fun k x => exists cs rest pts, s = cs ++ rest /\ cs <> [] /\ find_t t cs = Some pts /\ i <= k /\ nth_error pts (k - i) = Some x) p q.
Proof.
  induction s as [|c s IH]; intros t i p q E; cbn [walk] in E.
  - apply Ok_inj in E. subst q. apply raised_refl. intros k x (cs & rest & pts & E & N & _). destruct cs; [congruence|discriminate].
  - destruct (child c (t_children t)) as [u|] eqn:CH.
    2:{ apply Ok_inj in E. subst q. apply raised_refl. intros k x (cs & rest & pts & E & N & F & _). destruct cs as [|d cs]; [congruence|].
        injection E as <- _. cbn [find_t] in F. rewrite CH in F. discriminate. }
    apply bind_ok in E as (r & E1 & E2).
    apply (raised_trans (fun k x => exists pts, t_points u = Some pts /\ i <= k /\ nth_error pts (k - i) = Some x)
      (fun k x => exists cs rest pts, s = cs ++ rest /\ cs <> [] /\ find_t u cs = Some pts /\ i <= k /\ nth_error pts (k - i) = Some x) _ p r q).
    + destruct (t_points u) as [pts|].
      * pose proof (raise_all_raised _ _ _ _ E1) as R. intros k. destruct (R k) as (A & B & C). split; [exact A|]. split.
        -- intros x (pts' & X & L & H). injection X as <-. apply B. auto.
        -- destruct C as [->|C]; [auto|]. right. exists pts. auto.
      * apply Ok_inj in E1. subst r. apply raised_refl. intros k x (pts & X & _). discriminate.
    + apply IH, E2.
    + intros k x. split.
      * intros (cs & rest & pts & E & N & F & L & H). destruct cs as [|d cs]; [congruence|]. injection E as <- ->. cbn [find_t] in F. rewrite CH in F.
        destruct cs as [|d cs]; [left; exists pts; auto|]. right. exists (d :: cs), rest, pts. repeat split; auto. discriminate.
      * intros [(pts & F & L & H)|(cs & rest & pts & -> & N & F & L & H)].
        -- exists [c], s, pts. split; [reflexivity|]. split; [discriminate|]. cbn [find_t]. rewrite CH. auto.
        -- exists (c :: cs), rest, pts. split; [reflexivity|]. split; [discriminate|]. cbn [find_t]. rewrite CH. auto.
Qed.
Lemma walks_raised t s : forall i p q, walks t s i p = Ok q ->
  raised (fun k x => exists a cs b pts, s = a ++ cs ++ b /\ cs <> [] /\ find_t t cs = Some pts /\ i + List.length a <= k /\ nth_error pts (k - (i + List.length a)) = Some x) p q.
Proof.
  induction s as [|c s IH]; intros i p q E; cbn [walks] in E.
  - apply Ok_inj in E. subst q. apply raised_refl. intros k x (a & cs & b & pts & E & N & _). destruct a, cs; congruence || discriminate.
  - apply bind_ok in E as (r & E1 & E2). eapply raised_trans; [apply walk_raised, E1|apply IH, E2|]. intros k x. cbn beta. split.
    + intros (a & cs & b & pts & E & N & F & L & H). destruct a as [|d a].
      * left. exists cs, b, pts. cbn [List.length app] in *. rewrite Nat.add_0_r in *. auto.
      * right. injection E as <- ->. exists a, cs, b, pts. cbn [List.length] in *.
        replace (S i + List.length a) with (i + S (List.length a)) by lia. auto.
    + intros [(cs & b & pts & E & N & F & L & H)|(a & cs & b & pts & -> & N & F & L & H)].
      * exists [], cs, b, pts. cbn [List.length app]. rewrite Nat.add_0_r. auto.
      * exists (c :: a), cs, b, pts. cbn [List.length app]. replace (i + S (List.length a)) with (S i + List.length a) by lia. auto.
Qed.
Lemma values_spec ps t word q : Forall well_formed ps -> insert_patterns (map pat_str ps) t_empty = Ok t ->
  walks t word 0 (repeat 0 (S (List.length word))) = Ok q -> forall i, gap_value ps word i (nth i q 0).
Proof.
  intros W IT E i. destruct (insert_patterns_find ps W t_empty) as (t' & IT' & F). rewrite IT in IT'. apply Ok_inj in IT'. subst t'.
  destruct (walks_raised _ _ _ _ _ E i) as (_ & B & C).
  assert (P : forall x, proposes ps word i x <->
    exists a cs b pts, word = a ++ cs ++ b /\ cs <> [] /\ find_t t cs = Some pts /\ 0 + List.length a <= i /\ nth_error pts (i - (0 + List.length a)) = Some x).
  { intros x. cbn [Nat.add]. split.
    - intros (be & p & af & a & b & E1 & E2 & E3 & E4 & E5 & E6). exists a, (pat_letters p), b, (pat_values p). split; [exact E4|]. split; [exact E3|].
      split; [|auto]. rewrite F. replace (last_pat ps (pat_letters p)) with (Some p); [reflexivity|]. symmetry. apply last_pat_spec. eauto.
    - intros (a & cs & b & pts & E1 & E2 & E3 & E4 & E5). rewrite F, find_empty in E3. destruct (last_pat ps cs) as [p|] eqn:LP; [|discriminate].
      injection E3 as <-. apply last_pat_spec in LP as (be & af & -> & <- & NI). exists be, p, af, a, b. repeat split; assumption. }
  split; [intros x X; apply B, P, X|]. destruct C as [->|C]; [|right; apply P, C]. left. rewrite nth_repeat. reflexivity.
Qed.

(** ** breaks *)
Lemma pieces_breaks w : forall cur pts k, List.length w <= List.length pts ->
  (break_at (pieces cur w pts) k <-> exists j, k = List.length cur + S j /\ j < List.length w /\ Nat.odd (nth j pts 0) = true).
Proof.
  induction w as [|c w IH]; intros cur pts k HL.
  - assert (E : pieces cur [] pts = [cur]) by (destruct pts; reflexivity). rewrite E. split.
    + intros (a & b & E1 & NA & NB & _). destruct a as [|? [|? a]]; [congruence| |discriminate]. destruct b; [congruence|discriminate].
    + intros (j & _ & L & _). cbn in L. lia.
  - destruct pts as [|p pts]; [cbn in HL; lia|]. cbn [pieces List.length] in *.
    destruct (Nat.odd p) eqn:O.
    + split.
      * intros (a & b & E & NA & NB & L). destruct a as [|x a]; [congruence|]. injection E as <- E. cbn [concat] in L. rewrite !app_length in L. cbn [List.length] in L.
        destruct a as [|y a].
        -- exists 0. cbn [nth]. cbn in L. split; [lia|]. split; [lia|exact O].
        -- destruct (proj1 (IH [] pts (List.length (concat (y :: a))) ltac:(lia))) as (j & J1 & J2 & J3).
           { exists (y :: a), b. repeat split; auto. discriminate. }
           exists (S j). cbn [nth List.length] in *. split; [lia|]. split; [lia|exact J3].
      * intros (j & -> & L & H). destruct j as [|j].
        -- exists [cur ++ [c]], (pieces [] w pts). split; [reflexivity|]. split; [discriminate|]. split; [apply pieces_nonnil|].
           cbn [concat]. rewrite app_nil_r, app_length. reflexivity.
        -- cbn [nth] in H. destruct (proj2 (IH [] pts (S j) ltac:(lia))) as (a & b & E & NA & NB & LL).
           { exists j. split; [reflexivity|]. split; [lia|exact H]. }
           rewrite E. exists ((cur ++ [c]) :: a), b. split; [reflexivity|]. split; [discriminate|]. split; [exact NB|].
           cbn [concat]. rewrite !app_length, LL. cbn. lia.
    + rewrite IH by lia. rewrite app_length. cbn [List.length]. split.
      * intros (j & -> & L & H). exists (S j). cbn [nth]. split; [lia|]. split; [lia|exact H].
      * intros (j & -> & L & H). destruct j as [|j]; [cbn [nth] in H; congruence|]. exists j. cbn [nth] in H. split; [lia|]. split; [lia|exact H].
Qed.
