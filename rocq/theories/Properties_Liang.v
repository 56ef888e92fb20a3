(** * Property C76: the built-in hyphenator is Liang's algorithm.  Specification: HyphenSpec. *)
From Coq Require Import String.
From Verif Require Import Base Num Fonts State Words WordsSpec Hyphen Properties_Hyphen HyphenSpec HyphenProofs HyphenData.
Local Open Scope list_scope.
Open Scope nat_scope.

Lemma not_exception patterns exceptions h w : hyph_new patterns exceptions = Ok h -> ~ In w (map exc_word exceptions) -> exception h w = None.
Proof.
  intros B X. unfold hyph_new in B. apply bind_ok in B as (t & _ & B). apply Ok_inj in B. subst h.
  unfold exception. cbn. destruct (find _ _) as [[k q]|] eqn:F; [|reflexivity]. exfalso.
  apply find_some in F as [F1 F2]. cbn in F2. apply str_eqb_eq in F2. subst k.
  apply in_rev in F1. apply in_map_iff in F1 as (ex & E & I). injection E as E _. apply X. rewrite <- E. apply in_map, I.
Qed.
(** ** C76.  A word of more than four letters (whose length lowercasing does not change,
    see C27) that is not an exception is broken exactly where the value of the gap is odd,
    but not within the first or last two letters. *)
Theorem C76_liang : forall (lower : str -> str) (ps : list pattern) (exceptions : list str) (h : hyph) (w : str),
  Forall well_formed ps -> hyph_new (map pat_str ps) exceptions = Ok h ->
  List.length (lower w) = List.length w -> 4 < List.length w ->
  ~ In (lower w) (map (filter (fun c => negb (c =? 45)%N)) exceptions) ->
  exists parts, hyphenate_word lower h w = Ok parts /\ concat parts = w
    /\ forall k, break_at parts k <->
         2 <= k /\ k + 2 <= List.length w /\ exists v, gap_value ps (dotted (lower w)) (k + 1) v /\ Nat.odd v = true.
Proof.
  intros lower ps exceptions h w WF B HL HW X.
  pose proof (not_exception _ _ _ _ B X) as EX.
  unfold hyph_new in B. apply bind_ok in B as (t & IT & B). apply Ok_inj in B. subst h. cbn [h_tree] in *.
  set (work := 46%N :: lower w ++ [46%N]).
  assert (LW : List.length work = S (S (List.length w))) by (cbn; rewrite app_length; cbn; lia).
  assert (D : deep 0 t) by (eapply insert_patterns_deep; [exact IT|apply deep_empty]).
  destruct (walks_ok t work D 0 (repeat 0 (S (List.length work)))) as (q & E & L); [rewrite repeat_length; lia|].
  rewrite repeat_length in L.
  exists (pieces [] w (skipn 2 (zero_ends q))). split; [|split].
  - unfold hyphenate_word. replace (List.length w <=? 4) with false by lia. rewrite EX. cbv zeta. cbn [h_tree]. fold work. rewrite E. reflexivity.
  - apply pieces_concat. rewrite skipn_length, zero_ends_length. lia.
  - intros k. rewrite pieces_breaks by (rewrite skipn_length, zero_ends_length; lia). cbn [List.length Nat.add].
    assert (NS : forall i, nth i (skipn 2 (zero_ends q)) 0 = nth (S (S i)) (zero_ends q) 0).
    { intros i. destruct (zero_ends q) as [|a [|b z]]; cbn [skipn nth]; auto; destruct i; reflexivity. }
    pose proof (values_spec ps t work q WF IT E) as V. change work with (dotted (lower w)) in V.
    assert (Z : forall j, nth j (zero_ends q) 0 = if (1 =? j) || (2 =? j) || (List.length w + 1 =? j) || (List.length w =? j) then 0 else nth j q 0).
    { intros j. unfold zero_ends. rewrite !zero_at_nth. rewrite L, LW. replace (S (S (S (List.length w))) - 2) with (List.length w + 1) by lia.
      replace (S (S (S (List.length w))) - 3) with (List.length w) by lia.
      destruct (1 =? j), (2 =? j), (List.length w + 1 =? j), (List.length w =? j); reflexivity. }
    split.
    + intros (j & -> & J & O). rewrite NS, Z in O.
      destruct ((1 =? S (S j)) || (2 =? S (S j)) || (List.length w + 1 =? S (S j)) || (List.length w =? S (S j)))%bool eqn:EQ; [discriminate|].
      split; [lia|]. split; [lia|]. exists (nth (S (S j)) q 0). replace (S j + 1) with (S (S j)) by lia. split; [apply V|exact O].
    + intros (K1 & K2 & v & GV & O). exists (k - 1). split; [lia|]. split; [lia|]. rewrite NS, Z.
      replace ((1 =? S (S (k - 1))) || (2 =? S (S (k - 1))) || (List.length w + 1 =? S (S (k - 1))) || (List.length w =? S (S (k - 1))))%bool with false by lia.
      replace (S (S (k - 1))) with (k + 1) by lia. specialize (V (k + 1)). destruct V as [V1 V2], GV as [G1 G2].
      assert (EQ : v = nth (k + 1) q 0); [|rewrite <- EQ; exact O].
      destruct V2 as [V2|V2], G2 as [G2|G2]; try apply V1 in G2; try apply G1 in V2; lia.
Qed.
Print Assumptions C76_liang.

(** An exception is broken exactly at its hyphens. *)
Lemma exc_word_hyphenated parts : Forall (Forall (fun c => is_az c = true)) parts -> exc_word (hyphenated parts) = concat parts.
Proof.
  assert (A : forall p, Forall (fun c => is_az c = true) p -> filter (fun c => negb (is_dash c)) p = p).
  { induction 1 as [|c p H _ IH]; [reflexivity|]. cbn. replace (is_dash c) with false by (unfold is_dash, is_az in *; lia). cbn. congruence. }
  intros H. destruct H as [|p r Hp Hr]; [reflexivity|]. unfold exc_word, hyphenated. rewrite filter_app, (A _ Hp). cbn [concat]. f_equal.
  induction Hr as [|q r Hq _ IH]; [reflexivity|]. cbn [flat_map app filter concat]. cbn [is_dash N.eqb]. change (is_dash 45%N) with true. cbn [negb]. rewrite filter_app, (A _ Hq), IH. reflexivity.
Qed.
Lemma re_split_letters p r : Forall (fun c => is_az c = true) p -> re_split is_az (p ++ r) = repeat [] (List.length p) ++ re_split is_az r.
Proof. induction 1 as [|c p H _ IH]; [reflexivity|]. cbn [app re_split List.length repeat]. rewrite H, IH. reflexivity. Qed.
Lemma pieces_exception r : forall p (cs : str), Forall (fun c => is_az c = true) p -> p <> [] -> Forall (fun q => q <> [] /\ Forall (fun c => is_az c = true) q) r ->
  List.length cs = List.length (p ++ concat r) ->
  forall cur, map (@List.length char) (pieces cur cs (map (fun h => if str_eqb h [45%N] then 1 else 0) (tl (re_split is_az (hyphenated (p :: r))))))
  = List.length cur + List.length p :: map (@List.length char) r.
Proof.
  set (f := fun h => if str_eqb h [45%N] then 1 else 0).
  induction r as [|q r IH]; intros p cs Hp NP HF HL cur.
  - cbn [hyphenated flat_map concat map] in *. rewrite app_nil_r in *. rewrite <- (app_nil_r p), re_split_letters by exact Hp. cbn [re_split].
    clear Hp HF. revert cs HL cur NP. induction p as [|c p IHp]; intros cs HL cur NP; [congruence|]. cbn [List.length repeat app tl].
    destruct cs as [|d cs]; [discriminate|]. cbn [List.length] in HL. destruct p as [|c' p].
    + destruct cs; [|discriminate]. cbn. rewrite app_length. reflexivity.
    + cbn [List.length repeat app map]. cbn [pieces]. change (Nat.odd (f [])) with false. cbn iota.
      assert (X : [] ++ repeat [] (List.length p) = repeat (@nil char) (List.length p)) by reflexivity.
      specialize (IHp cs ltac:(lia) (cur ++ [d]) ltac:(discriminate)). cbn [List.length repeat app tl] in IHp. rewrite IHp, app_length. cbn. f_equal. lia.
  - assert (E : hyphenated (p :: q :: r) = p ++ 45%N :: hyphenated (q :: r)) by reflexivity. rewrite E, re_split_letters by exact Hp. clear E.
    inversion HF as [|? ? [NQ Hq] HF']; subst. revert cs HL cur. induction p as [|c p IHp]; intros cs HL cur; [congruence|]. cbn [List.length repeat app tl].
    destruct cs as [|d cs]; [discriminate|]. cbn [List.length app] in HL. inversion Hp as [|? ? _ Hp']; subst.
    destruct p as [|c' p].
    + cbn [List.length repeat app] in *. assert (E : re_split is_az (45%N :: hyphenated (q :: r)) = [45%N] :: tl (re_split is_az (hyphenated (q :: r)))).
      { cbn [re_split]. change (is_az 45%N) with false. cbn iota. destruct q as [|c0 q]; [congruence|].
        inversion Hq as [|? ? Hc _]; subst. cbn [hyphenated app re_split]. rewrite Hc. reflexivity. }
      rewrite E. cbn [map]. change (f [45%N]) with 1. cbn [pieces]. change (Nat.odd 1) with true. cbn iota. cbn [map]. f_equal; [rewrite app_length; reflexivity|].
      rewrite (IH q cs Hq NQ HF'); [reflexivity|]. cbn [concat] in HL. lia.
    + cbn [List.length repeat app map]. cbn [pieces]. change (Nat.odd (f [])) with false. cbn iota.
      specialize (IHp Hp' ltac:(discriminate) cs ltac:(cbn [List.length app] in *; lia) (cur ++ [d])). cbn [List.length repeat app tl] in IHp. rewrite IHp, app_length. cbn. f_equal. lia.
Qed.
Theorem C76_exceptions : forall (lower : str -> str) (patterns before after : list str) (parts : list str) (h : hyph) (w : str),
  hyph_new patterns (before ++ hyphenated parts :: after) = Ok h ->
  Forall (fun p => p <> [] /\ Forall (fun c => (97 <= c <= 122)%N) p) parts ->
  List.length (lower w) = List.length w -> 4 < List.length w -> lower w = concat parts ->
  ~ In (lower w) (map (filter (fun c => negb (c =? 45)%N)) after) ->
  exists out, hyphenate_word lower h w = Ok out /\ concat out = w /\ map (@List.length char) out = map (@List.length char) parts.
Proof.
  intros lower patterns before after parts h w B HP HL HW EW NA.
  assert (HP' : Forall (fun p => p <> [] /\ Forall (fun c => is_az c = true) p) parts).
  { eapply Forall_impl; [|exact HP]. intros p [A1 A2]. split; [exact A1|]. eapply Forall_impl; [|exact A2]. intros c C. cbn beta in C. unfold is_az. lia. }
  assert (EX : exception h (lower w) = Some (exc_points (hyphenated parts))).
  { unfold hyph_new in B. apply bind_ok in B as (t & _ & B). apply Ok_inj in B. subst h. unfold exception. cbn [h_exceptions].
    rewrite map_app, rev_app_distr. cbn [map rev]. rewrite <- app_assoc. cbn [app].
    assert (G : forall l tail, ~ In (lower w) (map exc_word l) -> find (fun e : str * list nat => str_eqb (lower w) (fst e)) (rev (map (fun ex => (exc_word ex, exc_points ex)) l) ++ tail)
                  = find (fun e => str_eqb (lower w) (fst e)) tail).
    { clear. induction l as [|x l IH]; intros tail N; [reflexivity|]. cbn [map rev]. rewrite <- app_assoc, IH by (intros X; apply N; right; exact X).
      cbn [app find fst]. unfold str_eqb at 1. destruct (list_eq_dec N.eq_dec (lower w) (exc_word x)) as [E|_]; [|reflexivity].
      exfalso. apply N. left. congruence. }
    rewrite G by exact NA. cbn [find fst]. rewrite exc_word_hyphenated by (eapply Forall_impl; [|exact HP']; intros p [_ A2]; exact A2).
    unfold str_eqb. destruct (list_eq_dec N.eq_dec (lower w) (concat parts)); [reflexivity|congruence]. }
  unfold hyphenate_word. replace (List.length w <=? 4) with false by lia. rewrite EX. cbn [bind]. eexists. split; [reflexivity|].
  destruct parts as [|p r]; [rewrite EW in HL; cbn in HL; lia|]. inversion HP' as [|? ? [NP Hp] HF]; subst.
  unfold exc_points.
  assert (TL : skipn 2 (0 :: map (fun h => if str_eqb h [45%N] then 1 else 0) (re_split is_az (hyphenated (p :: r))))
     = map (fun h => if str_eqb h [45%N] then 1 else 0) (tl (re_split is_az (hyphenated (p :: r))))).
  { destruct (re_split is_az (hyphenated (p :: r))); reflexivity. }
  assert (LC : List.length w = List.length (p ++ concat r)) by (rewrite <- HL, EW; reflexivity).
  rewrite TL. split; [|apply (pieces_exception r p w Hp NP HF LC [])].
  apply pieces_concat. rewrite map_length.
  assert (AZ : az_dash (hyphenated (p :: r))).
  { unfold az_dash, hyphenated. apply Forall_app. split; [eapply Forall_impl; [|exact Hp]; auto|]. clear -HF.
    induction HF as [|q r [_ A2] _ IH]; [constructor|]. cbn [flat_map app]. constructor; [auto|]. apply Forall_app. split; [eapply Forall_impl; [|exact A2]; auto|exact IH]. }
  pose proof (exc_points_length _ AZ) as LE. unfold exc_points in LE. cbn [List.length] in LE. rewrite map_length in LE.
  rewrite exc_word_hyphenated in LE by (eapply Forall_impl; [|exact HP']; intros ? [_ A2]; exact A2). cbn [concat] in LE.
  destruct (re_split is_az (hyphenated (p :: r))); cbn [List.length tl] in *; lia.
Qed.
Print Assumptions C76_exceptions.

(** ** The patterns and exceptions that come with the package: all are well-formed; the
    object is built; every word is partitioned (C27) and, unless it is one of the 14
    exceptions, broken as Liang's algorithm says. *)
(** a string as a pattern *)
Fixpoint parse_rest (s : str) : list (char * str) :=
  match s with
  | [] => []
  | c :: r => match parse_rest r with
              | l => let d := fst (take_while is_digit r) in if is_digit c then l else (c, d) :: l
              end
  end.
Definition parse_pat (s : str) : pattern := mkPat (fst (take_while is_digit s)) (parse_rest s).
Definition pat_okb (s : str) : bool :=
  str_eqb (pat_str (parse_pat s)) s && forallb is_digit (p_first (parse_pat s))
  && forallb (fun x => (is_dot (fst x) || is_az (fst x)) && forallb is_digit (snd x)) (p_rest (parse_pat s)).
Lemma pat_okb_ok s : pat_okb s = true -> well_formed (parse_pat s) /\ pat_str (parse_pat s) = s.
Proof.
  unfold pat_okb. intros H. apply andb_true_iff in H as [H C]. apply andb_true_iff in H as [A B]. apply str_eqb_eq in A. split; [|congruence].
  split; [apply Forall_forall; intros c I; rewrite forallb_forall in B; apply is_digit_spec, B, I|].
  apply Forall_forall. intros x I. rewrite forallb_forall in C. apply C in I. apply andb_true_iff in I as [I1 I2].
  split; [unfold is_dot, is_az, letter in *; lia|]. apply Forall_forall. intros c J. rewrite forallb_forall in I2. apply is_digit_spec, I2, J.
Qed.
Definition english_pats : list pattern := map parse_pat english_patterns.
Lemma english_well_formed : Forall well_formed english_pats /\ map pat_str english_pats = english_patterns.
Proof.
  assert (H : forallb pat_okb english_patterns = true) by (vm_compute; reflexivity).
  unfold english_pats. revert H. generalize english_patterns. intros l H. rewrite forallb_forall in H. split.
  - apply Forall_map, Forall_forall. intros s I. apply pat_okb_ok, H, I.
  - rewrite map_map. rewrite <- (map_id l) at 2. apply map_ext_in. intros s I. apply pat_okb_ok, H, I.
Qed.
Lemma english_exceptions_ok : Forall (fun ex => az_dash ex /\ ~ ends_dash ex) english_exceptions.
Proof. apply exc_okb_ok. vm_compute. reflexivity. Qed.
Theorem C76_english : exists h, hyph_new english_patterns english_exceptions = Ok h
  /\ forall (lower : str -> str) (w : str), List.length (lower w) = List.length w -> w <> [] ->
     exists parts, hyphenate_word lower h w = Ok parts /\ concat parts = w /\ Forall (fun p => p <> []) parts
       /\ (4 < List.length w -> ~ In (lower w) (map (filter (fun c => negb (c =? 45)%N)) english_exceptions) ->
           forall k, break_at parts k <->
             2 <= k /\ k + 2 <= List.length w /\ exists v, gap_value english_pats (dotted (lower w)) (k + 1) v /\ Nat.odd v = true).
Proof.
  destruct english_well_formed as [WF EQ]. destruct (insert_patterns_find _ WF t_empty) as (t & IT & _).
  set (h := mkHyph t (rev (map (fun ex => (exc_word ex, exc_points ex)) english_exceptions))).
  assert (B : hyph_new (map pat_str english_pats) english_exceptions = Ok h) by (unfold hyph_new; rewrite IT; reflexivity).
  exists h. rewrite <- EQ. split; [exact B|]. intros lower w HL N.
  destruct (C27_partitions lower _ _ h w B english_exceptions_ok HL N) as (parts & E & C & F). exists parts. split; [exact E|]. split; [exact C|]. split; [exact F|].
  intros L X. destruct (C76_liang lower _ _ h w WF B HL L X) as (parts' & E' & _ & K). rewrite E in E'. apply Ok_inj in E'. subst parts'. exact K.
Qed.
Print Assumptions C76_english.
Definition english (w : string) : res (list string) :=
  do h <- hyph_new english_patterns english_exceptions;
  do l <- hyphenate_word ascii_lower h (bs w); Ok (map (fun p => string_of_list_ascii (map Ascii.ascii_of_N p)) l).
Example C76_example : map english ["Hyphenation"; "supercalifragilisticexpialidocious"; "Reciprocity"; "table"]%string
  = map (@Ok _) [["Hy"; "phen"; "ation"]; ["su"; "per"; "cal"; "ifrag"; "ilis"; "tic"; "ex"; "pi"; "ali"; "do"; "cious"];
                 ["Reci"; "procity"]; ["ta"; "ble"]]%string.
Proof. vm_compute. reflexivity. Qed.
