(** * GposKern: the reader against OpenType. *)
From Coq Require Import QArith Qcanon Lia Sorted Bool.
From Verif Require Import Base Gpos GposSpec GposProofs Num.
Open Scope nat_scope.

(** ** The lookups found are those of the kern features, in order *)
Lemma add_unique_in is acc i :
  In i (fold_left (fun acc i => if existsb (Nat.eqb i) acc then acc else acc ++ [i]) is acc) <-> In i acc \/ In i is.
Proof.
  revert acc. induction is as [|j is IH]; intros acc; cbn [fold_left]; [cbn; tauto|]. rewrite IH.
  destruct (existsb (Nat.eqb j) acc) eqn:E.
  - apply existsb_exists in E as (x & X & Y). apply Nat.eqb_eq in Y. subst x. cbn. split; [tauto|].
    intros [H|[<-|H]]; auto.
  - rewrite in_app_iff. cbn. tauto.
Qed.
Lemma add_unique_nodup is acc : NoDup acc ->
  NoDup (fold_left (fun acc i => if existsb (Nat.eqb i) acc then acc else acc ++ [i]) is acc).
Proof.
  revert acc. induction is as [|j is IH]; intros acc ND; cbn [fold_left]; [exact ND|]. apply IH.
  destruct (existsb (Nat.eqb j) acc) eqn:E; [exact ND|]. apply NoDup_snoc; [exact ND|]. intro H.
  assert (existsb (Nat.eqb j) acc = true) as X by (apply existsb_exists; exists j; split; [exact H|apply Nat.eqb_refl]). congruence.
Qed.
Definition wanted (fs : list (bool * list nat)) (i : nat) : bool :=
  existsb (fun f : bool * list nat => (fst f && existsb (Nat.eqb i) (snd f))%bool) fs.
Lemma unique_spec fs : NoDup (unique_kern_lookups fs) /\ forall i, In i (unique_kern_lookups fs) <-> wanted fs i = true.
Proof.
  unfold unique_kern_lookups.
  assert (G : forall fs acc, NoDup acc ->
    let r := fold_left (fun acc (f : bool * list nat) => if (fst f : bool) then
        fold_left (fun acc i => if existsb (Nat.eqb i) acc then acc else acc ++ [i]) (snd f) acc else acc) fs acc in
    NoDup r /\ forall i, In i r <-> In i acc \/ wanted fs i = true).
  { induction fs0 as [|[k is] fs0 IH]; intros acc ND; cbn [fold_left].
    - split; [exact ND|]. intro i. cbn. intuition discriminate.
    - cbn [fst snd]. destruct k.
      + destruct (IH _ (add_unique_nodup is acc ND)) as [A B]. split; [exact A|]. intro i. rewrite B, add_unique_in.
        unfold wanted at 2. cbn [existsb fst snd]. rewrite orb_true_iff, andb_true_l.
        assert (existsb (Nat.eqb i) is = true <-> In i is) as ->.
        { rewrite existsb_exists. split; [intros (x & X & Y); apply Nat.eqb_eq in Y; subst; exact X|].
          intro X. exists i. split; [exact X|apply Nat.eqb_refl]. }
        unfold wanted. tauto.
      + destruct (IH acc ND) as [A B]. split; [exact A|]. intro i. rewrite B. unfold wanted. cbn. tauto. }
  destruct (G fs [] (NoDup_nil _)) as [A B]. split; [exact A|]. intro i. rewrite B. cbn. tauto.
Qed.
Lemma insert_in i l x : In x (insert i l) <-> x = i \/ In x l.
Proof.
  induction l as [|j l IH]; cbn; [intuition congruence|]. destruct (i <=? j); cbn; [intuition congruence|].
  rewrite IH. intuition congruence.
Qed.
Lemma insert_sorted i l : StronglySorted lt l -> ~ In i l -> StronglySorted lt (insert i l).
Proof.
  induction l as [|j l IH]; cbn; intros H N0; [repeat constructor|].
  inversion_clear H as [|? ? H1 H2]. destruct (Nat.leb_spec i j).
  - constructor; [constructor; assumption|]. constructor; [lia|]. rewrite Forall_forall in *. intros x X.
    specialize (H2 x X). lia.
  - constructor; [apply IH; tauto|]. rewrite Forall_forall in *. intros x X. apply insert_in in X as [->|X]; [lia|auto].
Qed.
Lemma sorted_spec l : NoDup l -> StronglySorted lt (sorted l) /\ forall x, In x (sorted l) <-> In x l.
Proof.
  induction l as [|i l IH]; cbn; intros ND; [split; [constructor|tauto]|].
  inversion_clear ND as [|? ? N0 ND0]. destruct (IH ND0) as [A B]. split.
  - apply insert_sorted; [exact A|]. rewrite B. exact N0.
  - intro x. rewrite insert_in, B. intuition congruence.
Qed.
Lemma sorted_unique (l l' : list nat) : StronglySorted lt l -> StronglySorted lt l' ->
  (forall x, In x l <-> In x l') -> l = l'.
Proof.
  revert l'. induction l as [|x l IH]; intros l' H H' E.
  - destruct l' as [|y l']; [reflexivity|]. exfalso. apply (E y). left. reflexivity.
  - destruct l' as [|y l']; [exfalso; apply (E x); left; reflexivity|].
    inversion_clear H as [|? ? H1 H2]. inversion_clear H' as [|? ? H1' H2']. rewrite Forall_forall in H2, H2'.
    assert (x = y) as ->.
    { assert (In x (y :: l')) as [A|A] by (apply E; left; reflexivity); [auto|].
      assert (In y (x :: l)) as [B|B] by (apply E; left; reflexivity); [auto|].
      specialize (H2 _ B). specialize (H2' _ A). lia. }
    f_equal. apply IH; [assumption|assumption|]. intro z. split; intro Z.
    + assert (In z (y :: l')) as [A|A] by (apply E; right; exact Z); [|exact A]. subst z. specialize (H2 _ Z). lia.
    + assert (In z (y :: l)) as [A|A] by (apply E; right; exact Z); [|exact A]. subst z. specialize (H2' _ Z). lia.
Qed.
Lemma seq_sorted n s : StronglySorted lt (seq s n).
Proof.
  revert s. induction n as [|n IH]; intro s; cbn; constructor; [apply IH|]. apply Forall_forall. intros x X.
  apply in_seq in X. lia.
Qed.
Lemma filter_sorted (f : nat -> bool) l : StronglySorted lt l -> StronglySorted lt (filter f l).
Proof.
  induction l as [|x l IH]; cbn; intros H; [constructor|]. inversion_clear H as [|? ? H1 H2].
  destruct (f x); [|auto]. constructor; [auto|]. rewrite Forall_forall in *. intros y Y. apply filter_In in Y as [Y _]. auto.
Qed.
Lemma indices_eq g : wf_gpos g -> sorted (unique_kern_lookups (gp_features g)) = kern_indices g.
Proof.
  intros [_ W]. destruct (unique_spec (gp_features g)) as [ND IN].
  destruct (sorted_spec _ ND) as [SO SI]. apply sorted_unique; [exact SO|apply filter_sorted, seq_sorted|].
  intro x. rewrite SI, IN. unfold kern_indices. rewrite filter_In. fold (wanted (gp_features g) x).
  split; [|tauto]. intro H. split; [|exact H]. apply in_seq. split; [lia|]. cbn.
  unfold wanted in H. apply existsb_exists in H as ([k is] & H1 & H2). cbn in H2. apply andb_true_iff in H2 as [-> H2].
  apply existsb_exists in H2 as (y & Y & E). apply Nat.eqb_eq in E. subst y.
  rewrite Forall_forall in W. specialize (W _ H1 eq_refl). rewrite Forall_forall in W. apply (W _ Y).
Qed.
Lemma nth_all {A} (l : list A) is : Forall (fun i => i < length l) is ->
  mapM (nth_res l) is = Ok (flat_map (fun i => match nth_error l i with Some x => [x] | None => [] end) is).
Proof.
  induction is as [|i is IH]; cbn; intros F; [reflexivity|]. inversion_clear F as [|? ? F1 F2]. unfold nth_res at 1.
  destruct (nth_error l i) eqn:E; [|apply nth_error_None in E; lia]. cbn [bind]. rewrite IH by exact F2. reflexivity.
Qed.
Lemma find_lookups_eq g : wf_gpos g -> find_lookups g = Ok (kern_lookups g).
Proof.
  intros W. unfold find_lookups. rewrite indices_eq by exact W. rewrite nth_all; [reflexivity|].
  apply Forall_forall. intros i H. unfold kern_indices in H. apply filter_In in H as [H _]. apply in_seq in H. lia.
Qed.
Lemma kern_lookups_wf g : wf_gpos g -> Forall (fun l => Forall wf_subtable (lk_subtables l)) (kern_lookups g).
Proof.
  intros [W _]. apply Forall_forall. intros l H. unfold kern_lookups in H. apply filter_In in H as [H T].
  apply in_flat_map in H as (i & _ & H). destruct (nth_error (gp_lookups g) i) eqn:E; [|contradiction].
  destruct H as [->|[]]. rewrite Forall_forall in W. apply W; [eapply nth_error_In; eauto|exact T].
Qed.
Lemma subs_eq l : Forall wf_subtable (lk_subtables l) ->
  flat_map pair_pos (lk_subtables l) = subs_of l /\ Forall wf_pairpos (subs_of l).
Proof.
  unfold subs_of. induction (lk_subtables l) as [|s r IH]; cbn; intros F; [split; [reflexivity|constructor]|].
  inversion_clear F as [|? ? F1 F2]. destruct (IH F2) as [A B]. rewrite A. destruct s as [p|ty p]; cbn in *.
  - split; [reflexivity|constructor; assumption].
  - destruct F1 as [->|[-> F1]]; cbn; [split; [reflexivity|exact B]|split; [reflexivity|constructor; assumption]].
Qed.
Lemma pair_pos_eq ls : Forall (fun l => Forall wf_subtable (lk_subtables l)) ls ->
  pair_pos_list ls = flat_map subs_of ls /\ Forall wf_pairpos (flat_map subs_of ls).
Proof.
  unfold pair_pos_list. induction ls as [|l ls IH]; cbn; intros F; [split; [reflexivity|constructor]|].
  inversion_clear F as [|? ? F1 F2]. destruct (IH F2) as [A B]. destruct (subs_eq l F1) as [C D]. rewrite A, C.
  split; [reflexivity|]. apply Forall_app. split; assumption.
Qed.

(** what the reader computes, for every well-formed table *)
Lemma kerning_pairs_get g : wf_gpos g ->
  exists m, kerning_pairs (Some g) = Ok m /\
  forall a b, pget m (a, b) = orelse (last_listed (flat_map subs_of (kern_lookups g)) a b)
                                     (first_some (fun p => by_class p a b) (flat_map subs_of (kern_lookups g))).
Proof.
  intros W. unfold kerning_pairs. rewrite find_lookups_eq by exact W. cbn [bind].
  destruct (pair_pos_eq _ (kern_lookups_wf g W)) as [-> F].
  destruct (pairs_get _ F) as (m & m' & E & E' & H). rewrite E. cbn [bind]. exists m'. auto.
Qed.

(** ** Against OpenType *)
Lemma listed_adj p a b : usual_pairpos p ->
  listed p a b = match p with PP1 _ _ _ => option_map KNum (sub_adj p a b) | _ => None end.
Proof.
  destruct p as [cov vf sets|cov vf cd1 cd2 recs| |]; cbn; try reflexivity. intros [-> _].
  destruct (position cov a); [|reflexivity]. destruct (assoc (nth n sets []) b); reflexivity.
Qed.
Definition nonzero (o : option Z) : option kval :=
  match o with Some z => if (z =? 0)%Z then None else Some (KNum z) | None => None end.
Lemma by_class_adj p a b : usual_pairpos p ->
  by_class p a b = match p with PP2 _ _ _ _ _ => nonzero (sub_adj p a b) | _ => None end.
Proof.
  destruct p as [cov vf sets|cov vf cd1 cd2 recs| |]; cbn; try reflexivity. intros (-> & C0 & Z0).
  assert (LC : left_class cov cd1 a = match position cov a with Some _ => Some (class_of cd1 a) | None => None end).
  { unfold left_class, class_of. destruct (position cov a) eqn:P.
    - assert (mem a cov = true) as ->; [|destruct (assoc cd1 a) as [[|c]|]; reflexivity].
      apply mem_in. apply position_nth in P. eapply nth_error_In; eauto.
    - apply position_none in P. assert (mem a cov = false) as ->.
      { destruct (mem a cov) eqn:M; [|reflexivity]. apply mem_in in M. contradiction. }
      destruct (assoc cd1 a) as [[|c]|] eqn:A; try reflexivity. exfalso. apply P. eapply C0. apply assoc_in. exact A. }
  rewrite LC. destruct (position cov a); [|reflexivity]. unfold class_of at 3, advance. cbn [N.testbit].
  change (Pos.testbit 4 2) with true. cbn iota. destruct (assoc cd2 b) as [j|]; [reflexivity|].
  cbn [nonzero]. unfold cell.
  destruct (Nat.lt_ge_cases (class_of cd1 a) (length recs)) as [LT|GE].
  - rewrite Forall_forall in Z0. rewrite (Z0 _ (nth_In recs [] LT)). reflexivity.
  - rewrite (nth_overflow recs) by exact GE. reflexivity.
Qed.

Definition applies (a b : N) (p : pairpos) : bool := is_some (sub_adj p a b).
Lemma hits_filter ls a b : forall i, map snd (hits_from i ls a b) = filter (applies a b) (flat_map subs_of ls).
Proof.
  induction ls as [|l ls IH]; intro i; cbn; [reflexivity|]. rewrite map_app, filter_app, IH, map_map. cbn [snd].
  rewrite map_id. reflexivity.
Qed.
Lemma last_filter ps a b : Forall usual_pairpos ps -> last_listed (filter (applies a b) ps) a b = last_listed ps a b.
Proof.
  unfold last_listed. generalize (@None kval). induction ps as [|p ps IH]; intros o F; [reflexivity|].
  inversion_clear F as [|? ? F1 F2]. cbn [filter]. destruct (applies a b p) eqn:A; cbn [fold_left]; [auto|].
  rewrite IH by exact F2. rewrite (listed_adj p a b F1). unfold applies in A. destruct (sub_adj p a b); [discriminate|].
  destruct p; reflexivity.
Qed.
Lemma class_filter ps a b : Forall usual_pairpos ps ->
  first_some (fun p => by_class p a b) (filter (applies a b) ps) = first_some (fun p => by_class p a b) ps.
Proof.
  induction ps as [|p ps IH]; intros F; [reflexivity|].
  inversion_clear F as [|? ? F1 F2]. cbn [filter]. destruct (applies a b p) eqn:A; cbn [first_some]; [rewrite IH by exact F2; reflexivity|].
  rewrite IH by exact F2. rewrite (by_class_adj p a b F1). unfold applies in A. destruct (sub_adj p a b); [discriminate|].
  destruct p; reflexivity.
Qed.
Lemma first_adj_filter ps a b : first_adj ps a b = match filter (applies a b) ps with
  | p :: _ => match sub_adj p a b with Some z => z | None => 0%Z end | [] => 0%Z end.
Proof.
  induction ps as [|p ps IH]; cbn; [reflexivity|]. unfold applies at 1. destruct (sub_adj p a b) as [z|] eqn:E; cbn; [rewrite E; reflexivity|exact IH].
Qed.
Lemma hits_index ls a b i j p : In (j, p) (hits_from i ls a b) -> i <= j.
Proof.
  revert i. induction ls as [|l ls IH]; cbn; intros i H; [contradiction|]. apply in_app_iff in H as [H|H].
  - apply in_map_iff in H as (q & E & _). injection E as <- _. lia.
  - specialize (IH (S i) H). lia.
Qed.
Definition total ls a b := zsum (map (fun l => first_adj (subs_of l) a b) ls).
Lemma total_none ls a b i : hits_from i ls a b = [] -> total ls a b = 0%Z.
Proof.
  revert i. unfold total. induction ls as [|l ls IH]; cbn; intros i H; [reflexivity|].
  apply app_eq_nil in H as [H1 H2]. fold (zsum (map (fun l => first_adj (subs_of l) a b) ls)).
  rewrite (IH _ H2), first_adj_filter.
  change (fun p => is_some (sub_adj p a b)) with (applies a b) in H1. apply map_eq_nil in H1. rewrite H1. reflexivity.
Qed.
(** all applying subtables in one lookup: the first one counts *)
Lemma total_one ls a b i j p r : hits_from i ls a b = (j, p) :: r -> Forall (fun h => fst h = j) r ->
  total ls a b = match sub_adj p a b with Some z => z | None => 0%Z end.
Proof.
  revert i. induction ls as [|l ls IH]; cbn; intros i H F; [discriminate|].
  change (fun p => is_some (sub_adj p a b)) with (applies a b) in H. unfold total. cbn [map zsum fold_right].
  fold (zsum (map (fun l => first_adj (subs_of l) a b) ls)). fold (total ls a b). rewrite first_adj_filter.
  destruct (filter (applies a b) (subs_of l)) as [|q qs].
  - cbn [map app] in H. rewrite (IH _ H F). lia.
  - cbn [map app] in H. injection H as <- <- H. rewrite (total_none ls a b (S i)); [lia|].
    destruct (hits_from (S i) ls a b) as [|[j' p'] r'] eqn:E; [reflexivity|]. exfalso.
    rewrite Forall_forall in F. specialize (F (j', p')). cbn in F.
    assert (j' = i) as -> by (apply F; rewrite <- H; apply in_or_app; right; left; reflexivity).
    assert (S i <= i) by (eapply (hits_index ls a b (S i)); rewrite E; left; reflexivity). lia.
Qed.

(** the number stored for a pair: 0 if there is none *)
Definition kern_num (o : option kval) : option Z :=
  match o with None => Some 0%Z | Some (KNum z) => Some z | Some (KRtl _ _) => None end.
Lemma once_kern g a b : usual_gpos g -> dealt_with_once g a b ->
  kern_num (orelse (last_listed (flat_map subs_of (kern_lookups g)) a b)
                   (first_some (fun p => by_class p a b) (flat_map subs_of (kern_lookups g)))) = Some (ot_kern g a b).
Proof.
  intros U. assert (UF : Forall usual_pairpos (flat_map subs_of (kern_lookups g))).
  { apply Forall_forall. intros p P. apply in_flat_map in P as (l & L & P). unfold usual_gpos in U.
    rewrite Forall_forall in U. specialize (U _ L). rewrite Forall_forall in U. auto. }
  rewrite <- last_filter, <- class_filter by exact UF. rewrite <- (hits_filter (kern_lookups g) a b 0). fold (hits g a b).
  unfold dealt_with_once, ot_kern. fold (total (kern_lookups g) a b).
  assert (FU : Forall usual_pairpos (map snd (hits g a b))).
  { unfold hits. rewrite hits_filter. apply Forall_forall. intros p P. apply filter_In in P as [P _].
    rewrite Forall_forall in UF. auto. }
  destruct (hits g a b) as [|[i p] r] eqn:H; unfold hits in H.
  - intros _. rewrite (total_none _ _ _ 0 H). reflexivity.
  - inversion_clear FU as [|? ? F1 F2]. cbn [map snd] in *. unfold last_listed. cbn [fold_left first_some].
    rewrite (listed_adj p a b F1), (by_class_adj p a b F1).
    destruct r as [|[j q] r].
    + intros _. rewrite (total_one _ _ _ 0 i p [] H) by constructor. cbn [map first_some fold_left].
      destruct p as [cov vf sets|cov vf cd1 cd2 recs| |]; cbn [orelse].
      * destruct (sub_adj (PP1 cov vf sets) a b) as [z|]; reflexivity.
      * destruct (sub_adj (PP2 cov vf cd1 cd2 recs) a b) as [z|]; cbn [nonzero]; [|reflexivity].
        destruct (Z.eqb_spec z 0) as [->|]; reflexivity.
      * reflexivity.
      * reflexivity.
    + destruct p as [cov vf sets| | |]; try contradiction. destruct q as [|cov2 vf2 cd1 cd2 recs| |]; try contradiction.
      destruct r as [|? r]; [|contradiction]. intros <-. cbn [map snd] in *. inversion_clear F2 as [|? ? F3 _].
      rewrite (total_one _ _ _ 0 i _ _ H) by (repeat constructor). cbn [map first_some fold_left].
      rewrite (listed_adj _ a b F3), (by_class_adj _ a b F3).
      assert (applies a b (PP1 cov vf sets) = true) as AP.
      { assert (In (PP1 cov vf sets) (filter (applies a b) (flat_map subs_of (kern_lookups g)))) as X.
        { rewrite <- (hits_filter _ a b 0), H. left. reflexivity. }
        apply filter_In in X as [_ X]. exact X. }
      unfold applies in AP. destruct (sub_adj (PP1 cov vf sets) a b) as [z|]; [|discriminate]. reflexivity.
Qed.

(** ** Characters *)
Lemma glyph_chars_get cmap a : dget N.eqb (glyph_chars cmap) a =
  fold_left (fun o e => if (a =? snd e)%N then Some (fst e) else o) cmap None.
Proof.
  unfold glyph_chars.
  assert (G : forall cmap d, dget N.eqb (fold_left (fun d (e : N * N) => dset N.eqb d (snd e) (fst e)) cmap d) a =
    fold_left (fun o (e : N * N) => if (a =? snd e)%N then Some (fst e) else o) cmap (dget N.eqb d a)).
  { induction cmap0 as [|e cm IH]; intros d; cbn [fold_left]; [reflexivity|]. rewrite IH.
    rewrite dget_dset; [reflexivity|]. intros; apply N.eqb_spec. }
  rewrite G. reflexivity.
Qed.
(** the only character of a glyph *)
Lemma glyph_chars_only cmap a c : In (c, a) cmap -> (forall c', In (c', a) cmap -> c' = c) ->
  dget N.eqb (glyph_chars cmap) a = Some c.
Proof.
  rewrite glyph_chars_get. intros I0 U.
  assert (G : forall cm o, (forall c', In (c', a) cm -> c' = c) -> (In (c, a) cm \/ o = Some c) ->
    fold_left (fun o (e : N * N) => if (a =? snd e)%N then Some (fst e) else o) cm o = Some c).
  { induction cm as [|[x y] cm IH]; intros o UU H; cbn [fold_left].
    - destruct H as [[]|H]; exact H.
    - cbn [fst snd]. destruct (N.eqb_spec a y) as [<-|NE].
      + apply IH; [intros c' X; apply UU; right; exact X|]. right. f_equal. apply UU. left. reflexivity.
      + apply IH; [intros c' X; apply UU; right; exact X|]. destruct H as [[E|H]|H]; [congruence|auto|auto]. }
  apply G; [exact U|auto].
Qed.
Lemma glyph_chars_sound cmap a c : dget N.eqb (glyph_chars cmap) a = Some c -> In (c, a) cmap.
Proof.
  rewrite glyph_chars_get.
  assert (G : forall cm o, fold_left (fun o (e : N * N) => if (a =? snd e)%N then Some (fst e) else o) cm o = Some c ->
    In (c, a) cm \/ o = Some c).
  { induction cm as [|[x y] cm IH]; intros o H; cbn [fold_left] in H; [auto|].
    apply IH in H as [H|H]; [left; right; exact H|]. cbn [fst snd] in H.
    destruct (N.eqb_spec a y) as [<-|]; [|auto]. injection H as ->. left. left. reflexivity. }
  intro H. apply G in H as [H|H]; [exact H|discriminate].
Qed.
Lemma chars_get (d : list (N * N)) (m : pairs) a b c e :
  NoDup (map fst m) ->
  (forall x y z, dget N.eqb d x = Some z -> dget N.eqb d y = Some z -> x = y) ->
  dget N.eqb d a = Some c -> dget N.eqb d b = Some e ->
  dget pair_eqb (fold_left (fun acc en =>
        match dget N.eqb d (fst (fst en)), dget N.eqb d (snd (fst en)) with
        | Some a, Some b => dset pair_eqb acc (a, b) (snd en)
        | _, _ => acc
        end) m []) (c, e) = pget m (a, b).
Proof.
  intros ND INJ DA DB.
  assert (G : forall (m : pairs) acc, NoDup (map fst m) ->
    dget pair_eqb (fold_left (fun acc en =>
        match dget N.eqb d (fst (fst en)), dget N.eqb d (snd (fst en)) with
        | Some a, Some b => dset pair_eqb acc (a, b) (snd en)
        | _, _ => acc
        end) m acc) (c, e) = orelse (pget m (a, b)) (dget pair_eqb acc (c, e))).
  { induction m0 as [|[[x y] v] m0 IH]; intros acc ND0; cbn [fold_left]; [reflexivity|]. cbn [fst snd].
    inversion_clear ND0 as [|? ? N0 ND1]. rewrite IH by exact ND1. unfold pget. cbn [dget].
    destruct (pair_eqb_spec (a, b) (x, y)) as [E|NE].
    - injection E as <- <-. rewrite DA, DB.
      replace (dget pair_eqb m0 (a, b)) with (@None kval).
      + cbn [orelse]. rewrite dget_dset by exact pair_eqb_spec.
        destruct (pair_eqb_spec (c, e) (c, e)); [reflexivity|congruence].
      + symmetry. clear -N0. cbn in N0. induction m0 as [|[k w] m0 IH]; cbn; [reflexivity|].
        destruct (pair_eqb_spec (a, b) k) as [<-|]; [exfalso; apply N0; left; reflexivity|]. apply IH. intro X. apply N0. right. exact X.
    - fold (pget m0 (a, b)). destruct (pget m0 (a, b)); [reflexivity|]. cbn [orelse].
      destruct (dget N.eqb d x) as [x'|] eqn:DX; [|reflexivity]. destruct (dget N.eqb d y) as [y'|] eqn:DY; [|reflexivity].
      rewrite dget_dset by exact pair_eqb_spec. destruct (pair_eqb_spec (c, e) (x', y')) as [E|]; [|reflexivity].
      injection E as -> ->. exfalso. apply NE. f_equal; eapply INJ; eauto. }
  rewrite G by exact ND. cbn. destruct (pget m (a, b)); reflexivity.
Qed.

(** every pair is stored once *)
Lemma dset_keys {V} (d : list ((N * N) * V)) k v : NoDup (map fst d) -> NoDup (map fst (dset pair_eqb d k v)).
Proof.
  assert (K : forall d : list ((N * N) * V), forall x, In x (map fst (dset pair_eqb d k v)) -> x = k \/ In x (map fst d)).
  { induction d0 as [|[k0 v0] d0 IH]; cbn; intros x H; [destruct H as [<-|[]]; auto|].
    destruct (pair_eqb_spec k k0) as [<-|]; cbn in H; [tauto|]. destruct H as [<-|H]; [tauto|]. apply IH in H. tauto. }
  induction d as [|[k0 v0] d IH]; cbn; intros ND; [repeat constructor; intros []|].
  inversion_clear ND as [|? ? N0 ND0]. destruct (pair_eqb_spec k k0) as [<-|NE]; cbn; [constructor; assumption|].
  constructor; [|auto]. intro X. apply K in X as [->|X]; [congruence|contradiction].
Qed.
Lemma foldM_inv {A B} (P : B -> Prop) (f : B -> A -> res B) l b b' :
  (forall b x b', P b -> f b x = Ok b' -> P b') -> P b -> foldM f l b = Ok b' -> P b'.
Proof.
  intros S0. revert b. induction l as [|x l IH]; cbn; intros b H E; [apply Ok_inj in E; subst; exact H|].
  apply bind_ok in E as (b1 & E1 & E2). eauto.
Qed.
Lemma fold_inv {A B} (P : B -> Prop) (f : B -> A -> B) l b : (forall b x, P b -> P (f b x)) -> P b -> P (fold_left f l b).
Proof. intros S0. revert b. induction l as [|x l IH]; cbn; auto. Qed.
Lemma kerning_pairs_keys g m : kerning_pairs g = Ok m -> NoDup (map fst m).
Proof.
  destruct g as [g|]; cbn; intros H; [|apply Ok_inj in H; subst; constructor].
  apply bind_ok in H as (ls & _ & H). apply bind_ok in H as (m1 & E1 & E2).
  assert (NoDup (map fst m1)) as N1.
  { eapply (foldM_inv (fun m : pairs => NoDup (map fst m)) single_pairs _ []); [|exact (NoDup_nil _)|exact E1].
    intros m0 p m2 H0 E. destruct p as [cov vf sets|? ? ? ? ?| |]; cbn in E; try (apply Ok_inj in E; subst; exact H0); [|discriminate].
    revert m0 H0 E. generalize 0. induction sets as [|s sets IH]; cbn; intros i m0 H0 E; [apply Ok_inj in E; subst; exact H0|].
    apply bind_ok in E as (m3 & E3 & E). eapply IH; [|exact E].
    eapply (foldM_inv (fun m : pairs => NoDup (map fst m))); [|exact H0|exact E3].
    intros m4 rec m5 H4 E5. unfold single_record in E5. destruct (single_value vf (snd rec)); [|apply Ok_inj in E5; subst; exact H4].
    apply bind_ok in E5 as (a & _ & E5). apply Ok_inj in E5. subst. apply dset_keys, H4. }
  eapply (foldM_inv (fun m : pairs => NoDup (map fst m))); [|exact N1|exact E2].
  intros m0 p m2 H0 E. destruct p as [? ? ?|cov vf cd1 cd2 recs| |]; cbn in E; try (apply Ok_inj in E; subst; exact H0).
  eapply (foldM_inv (fun m : pairs => NoDup (map fst m))); [|exact H0|exact E].
  intros m3 cl m4 H3 E4. eapply (foldM_inv (fun m : pairs => NoDup (map fst m))); [|exact H3|exact E4].
  intros m5 cr m6 H5 E6. unfold class_pair in E6. apply bind_ok in E6 as (row & _ & E6). apply bind_ok in E6 as (v & _ & E6).
  destruct ((vf =? 4) || (vf =? 5))%N; [|apply Ok_inj in E6; subst; exact H5].
  destruct (v_xadv v =? 0)%Z; apply Ok_inj in E6; subst; [exact H5|]. unfold class_product.
  apply (fold_inv (fun m : pairs => NoDup (map fst m))); [|exact H5]. intros m7 l H7.
  apply (fold_inv (fun m : pairs => NoDup (map fst m))); [|exact H7]. intros m8 r H8.
  destruct (dget pair_eqb m8 (l, r)); [exact H8|apply dset_keys, H8].
Qed.
