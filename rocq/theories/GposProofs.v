(** * GposProofs: what the reader of the GPOS table computes. *)
From Verif Require Import Base Gpos GposSpec.
From Coq Require Import Lia Permutation Sorted Bool.
Open Scope nat_scope.

Lemma pair_eqb_spec p q : reflect (p = q) (pair_eqb p q).
Proof.
  destruct p as [a b], q as [c d]. unfold pair_eqb. cbn.
  destruct (N.eqb_spec a c), (N.eqb_spec b d); cbn; constructor; congruence.
Qed.
Section D.
Context {K V : Type} (eqb : K -> K -> bool) (ES : forall a b, reflect (a = b) (eqb a b)).
Lemma dget_dset (d : list (K * V)) k v k' :
  dget eqb (dset eqb d k v) k' = if eqb k' k then Some v else dget eqb d k'.
Proof.
  induction d as [|[k0 v0] d IH]; cbn; [reflexivity|].
  destruct (ES k k0) as [->|N0]; cbn.
  - destruct (ES k' k0); reflexivity.
  - rewrite IH. destruct (ES k' k0) as [->|N1]; [|reflexivity].
    destruct (ES k0 k); [subst; contradiction|reflexivity].
Qed.
End D.
Definition pget := @dget (glyph * glyph) kval pair_eqb.
Lemma pget_dset m k v k' : pget (dset pair_eqb m k v) k' = if pair_eqb k' k then Some v else pget m k'.
Proof. apply dget_dset. exact pair_eqb_spec. Qed.

Lemma assoc_in {V} (d : list (N * V)) k v : assoc d k = Some v -> In (k, v) d.
Proof.
  induction d as [|[k0 v0] d IH]; cbn; [discriminate|]. destruct (N.eqb_spec k k0) as [->|]; [|auto].
  injection 1 as ->. left. reflexivity.
Qed.
Lemma assoc_none {V} (d : list (N * V)) k : assoc d k = None <-> ~ In k (map fst d).
Proof.
  induction d as [|[k0 v0] d IH]; cbn; [tauto|]. destruct (N.eqb_spec k k0) as [->|].
  - split; [discriminate|]. intro H. exfalso. apply H. left. reflexivity.
  - rewrite IH. split; intros H; [intros [E|E]; [congruence|tauto]|tauto].
Qed.
Lemma assoc_of_in {V} (d : list (N * V)) k v : NoDup (map fst d) -> In (k, v) d -> assoc d k = Some v.
Proof.
  induction d as [|[k0 v0] d IH]; cbn; [contradiction|]. intros ND [E|E].
  - injection E as -> ->. rewrite N.eqb_refl. reflexivity.
  - inversion_clear ND as [|? ? N0 ND0]. destruct (N.eqb_spec k k0) as [->|]; [|auto].
    exfalso. apply N0. apply in_map_iff. exists (k0, v). auto.
Qed.
Lemma position_nth l g i : position l g = Some i -> nth_error l i = Some g.
Proof.
  revert i. induction l as [|x l IH]; cbn; intros i H; [discriminate|].
  destruct (N.eqb_spec g x) as [->|]; [injection H as <-; reflexivity|].
  destruct (position l g); [|discriminate]. injection H as <-. cbn. auto.
Qed.
Lemma position_none l g : position l g = None <-> ~ In g l.
Proof.
  induction l as [|x l IH]; cbn; [tauto|]. destruct (N.eqb_spec g x) as [->|].
  - split; [discriminate|]. intro H. exfalso. auto.
  - destruct (position l g); cbn; split; intros H.
    + discriminate.
    + exfalso. assert (~ In g l) as X by tauto. apply IH in X. discriminate.
    + intros [E|E]; [congruence|]. apply IH in E; auto.
    + reflexivity.
Qed.
Lemma position_of_nth l g i : NoDup l -> nth_error l i = Some g -> position l g = Some i.
Proof.
  revert i. induction l as [|x l IH]; intros i ND H; [destruct i; discriminate|]. cbn.
  inversion_clear ND as [|? ? N0 ND0]. destruct i as [|i]; cbn in H.
  - injection H as ->. rewrite N.eqb_refl. reflexivity.
  - destruct (N.eqb_spec g x) as [->|]; [exfalso; apply N0; eapply nth_error_In; eauto|].
    rewrite (IH i ND0 H). reflexivity.
Qed.
Lemma NoDup_snoc {A} (l : list A) x : NoDup l -> ~ In x l -> NoDup (l ++ [x]).
Proof.
  intros ND N0. eapply Permutation_NoDup; [apply Permutation_cons_append|]. constructor; assumption.
Qed.
Lemma mem_in g l : mem g l = true <-> In g l.
Proof.
  unfold mem. rewrite existsb_exists. split; [intros [x [X E]]|].
  - apply N.eqb_eq in E. subst. exact X.
  - intro X. exists g. split; [exact X|apply N.eqb_refl].
Qed.
Lemma distinct_in g l : In g (distinct l) <-> In g l.
Proof.
  induction l as [|x l IH]; cbn; [tauto|]. destruct (mem x l) eqn:E; cbn; rewrite IH; [|tauto].
  apply mem_in in E. split; [tauto|]. intros [<-|X]; auto.
Qed.

(** ** Pairs listed one by one *)

(** the value a subtable of format 1 stores for a pair *)
Definition listed (p : pairpos) (a b : N) : option kval :=
  match p with
  | PP1 cov vf sets =>
      match position cov a with
      | Some i => match assoc (nth i sets []) b with Some v => single_value vf v | None => None end
      | None => None
      end
  | _ => None
  end.
Definition orelse {A} (o d : option A) : option A := match o with Some x => Some x | None => d end.

Lemma record_fold cov vf i a0 s m :
  nth_error cov i = Some a0 -> NoDup (map fst s) ->
  exists m', foldM (single_record cov vf i) s m = Ok m' /\
  forall a b, pget m' (a, b) =
    orelse (if (a =? a0)%N then match assoc s b with Some v => single_value vf v | None => None end else None) (pget m (a, b)).
Proof.
  intros C. revert m. induction s as [|[g v] s IH]; intros m ND; cbn [foldM].
  - exists m. split; [reflexivity|]. intros a b. cbn. destruct (a =? a0)%N; reflexivity.
  - inversion_clear ND as [|? ? N0 ND0]. unfold single_record at 1. cbn [fst snd] in *.
    assert (forall b, assoc s b <> None -> b <> g) as NG.
    { intros b X ->. apply X, assoc_none, N0. }
    destruct (single_value vf v) as [k|] eqn:SV.
    + unfold nth_res. rewrite C. cbn [bind].
      destruct (IH (dset pair_eqb m (a0, g) k) ND0) as (m' & E & H). exists m'. split; [exact E|].
      intros a b. rewrite H. rewrite pget_dset. cbn [assoc]. unfold pair_eqb. cbn [fst snd].
      destruct (N.eqb_spec a a0) as [->|]; cbn [andb]; [|reflexivity].
      destruct (N.eqb_spec b g) as [->|NB]; [|reflexivity].
      rewrite SV. replace (assoc s g) with (@None value) by (symmetry; apply assoc_none; exact N0). reflexivity.
    + cbn [bind]. destruct (IH m ND0) as (m' & E & H). exists m'. split; [exact E|].
      intros a b. rewrite H. cbn [assoc]. destruct (N.eqb_spec a a0) as [->|]; [|reflexivity].
      destruct (N.eqb_spec b g) as [->|NB]; [|reflexivity].
      rewrite SV. replace (assoc s g) with (@None value) by (symmetry; apply assoc_none; exact N0). reflexivity.
Qed.

Lemma sets_fold cov vf : NoDup cov -> forall sets i m,
  i + length sets = length cov -> Forall (fun s => NoDup (map fst s)) sets ->
  exists m', single_sets cov vf i sets m = Ok m' /\
  forall a b, pget m' (a, b) =
    orelse (match position cov a with
            | Some j => if i <=? j then match assoc (nth (j - i) sets []) b with Some v => single_value vf v | None => None end
                        else None
            | None => None
            end) (pget m (a, b)).
Proof.
  intros NDC. induction sets as [|s sets IH]; intros i m L F; cbn [single_sets].
  - exists m. split; [reflexivity|]. intros a b. destruct (position cov a) as [j|]; [|reflexivity].
    destruct (i <=? j); [|reflexivity]. destruct (j - i); reflexivity.
  - inversion_clear F as [|? ? F1 F2]. cbn [length] in L.
    destruct (nth_error cov i) as [a0|] eqn:C; [|apply nth_error_None in C; lia].
    destruct (record_fold cov vf i a0 s m C F1) as (m1 & E1 & H1). rewrite E1. cbn [bind].
    destruct (IH (S i) m1) as (m2 & E2 & H2); [lia|exact F2|]. exists m2. split; [exact E2|].
    intros a b. rewrite H2, H1.
    destruct (N.eqb_spec a a0) as [->|NA].
    + rewrite (position_of_nth cov a0 i NDC C). rewrite Nat.leb_refl, Nat.sub_diag.
      destruct (Nat.leb_spec (S i) i); [lia|]. reflexivity.
    + destruct (position cov a) as [j|] eqn:PJ; [|reflexivity].
      assert (j <> i) by (intros ->; apply position_nth in PJ; congruence).
      destruct (Nat.leb_spec (S i) j), (Nat.leb_spec i j); try lia; [|reflexivity].
      replace (j - i) with (S (j - S i)) by lia. cbn. reflexivity.
Qed.

Lemma single_pairs_get m p : wf_pairpos p ->
  exists m', single_pairs m p = Ok m' /\ forall a b, pget m' (a, b) = orelse (listed p a b) (pget m (a, b)).
Proof.
  destruct p as [cov vf sets|cov vf cd1 cd2 recs| |]; cbn; intros W; try (exists m; split; [reflexivity|intros; reflexivity]).
  - destruct W as (W1 & W2 & W3). destruct (sets_fold cov vf W1 sets 0 m) as (m' & E & H); [lia|exact W3|].
    exists m'. split; [exact E|]. intros a b. rewrite H. destruct (position cov a) as [j|]; [|reflexivity].
    cbn [Nat.leb]. rewrite Nat.sub_0_r. reflexivity.
  - contradiction.
Qed.
(** the last subtable that lists the pair *)
Definition last_listed (ps : list pairpos) (a b : N) : option kval :=
  fold_left (fun o p => orelse (listed p a b) o) ps None.
Lemma single_all ps : forall m, Forall wf_pairpos ps ->
  exists m', foldM single_pairs ps m = Ok m' /\
  forall a b, pget m' (a, b) = fold_left (fun o p => orelse (listed p a b) o) ps (pget m (a, b)).
Proof.
  induction ps as [|p ps IH]; intros m F; cbn [foldM fold_left].
  - exists m. split; reflexivity.
  - inversion_clear F as [|? ? F1 F2]. destruct (single_pairs_get m p F1) as (m1 & E1 & H1). rewrite E1. cbn [bind].
    destruct (IH m1 F2) as (m2 & E2 & H2). exists m2. split; [exact E2|]. intros a b. rewrite H2, H1. reflexivity.
Qed.

(** ** Pairs of classes *)

Lemma product_get k ls rs m a b :
  pget (class_product k ls rs m) (a, b) =
  orelse (pget m (a, b)) (if mem a ls && mem b rs then Some k else None).
Proof.
  assert (INNER : forall l rs m, pget (fold_left (fun m r =>
      match dget pair_eqb m (l, r) with Some _ => m | None => dset pair_eqb m (l, r) k end) rs m) (a, b) =
      orelse (pget m (a, b)) (if (a =? l)%N && mem b rs then Some k else None)).
  { intros l. induction rs0 as [|r rs0 IH]; intros m0; cbn [fold_left].
    - cbn. rewrite andb_false_r. destruct (pget m0 (a, b)); reflexivity.
    - rewrite IH. fold (pget m0 (l, r)). unfold mem. cbn [existsb]. fold (mem b rs0).
      destruct (pget m0 (l, r)) as [x|] eqn:G.
      + destruct (N.eqb_spec a l) as [->|]; [|reflexivity]. destruct (N.eqb_spec b r) as [->|]; [|reflexivity].
        rewrite G. reflexivity.
      + rewrite pget_dset. unfold pair_eqb. cbn [fst snd].
        destruct (N.eqb_spec a l) as [->|]; cbn [andb]; [|reflexivity].
        destruct (N.eqb_spec b r) as [->|]; [|reflexivity]. rewrite G. cbn. reflexivity. }
  unfold class_product. revert m. induction ls as [|l ls IH]; intros m; cbn [fold_left].
  - cbn. destruct (pget m (a, b)); reflexivity.
  - rewrite IH, INNER. change (mem a (l :: ls)) with ((a =? l)%N || mem a ls).
    destruct (pget m (a, b)); cbn; [reflexivity|].
    destruct (a =? l)%N, (mem a ls), (mem b rs); reflexivity.
Qed.

(** [classes L f]: the list [L] groups the glyphs by the class [f] *)
Record classes (L : list (nat * list glyph)) (f : glyph -> option nat) : Prop := {
  cl_nodup : NoDup (map fst L);
  cl_in : forall c gs g, In (c, gs) L -> (In g gs <-> f g = Some c);
  cl_all : forall c g, f g = Some c -> exists gs, In (c, gs) L
}.
Lemma class_add_fst L c g : map fst (class_add L c g) = map fst L \/ (map fst (class_add L c g) = map fst L ++ [c] /\ ~ In c (map fst L)).
Proof.
  induction L as [|[c0 gs] L IH]; cbn; [right; tauto|].
  destruct (Nat.eqb_spec c c0) as [->|]; cbn; [left; reflexivity|].
  destruct IH as [->|[-> N0]]; [left; reflexivity|right; split; [reflexivity|]]. intros [E|E]; [congruence|tauto].
Qed.
Lemma class_add_in L c g c' gs' : NoDup (map fst L) -> In (c', gs') (class_add L c g) ->
  (c' <> c /\ In (c', gs') L) \/ (c' = c /\ ((exists gs, In (c, gs) L /\ gs' = gs ++ [g]) \/ (~ In c (map fst L) /\ gs' = [g]))).
Proof.
  induction L as [|[c0 gs] L IH]; cbn; intros ND H.
  - destruct H as [E|[]]. injection E as <- <-. right. auto.
  - inversion_clear ND as [|? ? N0 ND0]. destruct (Nat.eqb_spec c c0) as [->|NC].
    + destruct H as [E|E].
      * injection E as <- <-. right. split; [reflexivity|]. left. exists gs. auto.
      * left. split; [|auto]. intros ->. apply N0. apply in_map_iff. exists (c0, gs'). auto.
    + destruct H as [E|E].
      * injection E as <- <-. left. auto.
      * destruct (IH ND0 E) as [[? ?]|[-> [(gs0 & ? & ?)|[? ?]]]]; [left; auto|right|right].
        -- split; [reflexivity|]. left. exists gs0. auto.
        -- split; [reflexivity|]. right. split; [|assumption]. intros [X|X]; [congruence|tauto].
Qed.
Lemma class_add_has L c g : exists gs, In (c, gs) (class_add L c g).
Proof.
  induction L as [|[c0 gs] L [gs0 IH]]; cbn; [eauto|]. destruct (Nat.eqb_spec c c0) as [->|]; [eexists; left; reflexivity|].
  exists gs0. right. exact IH.
Qed.
Lemma class_add_keeps L c g c' : In c' (map fst L) -> exists gs, In (c', gs) (class_add L c g).
Proof.
  intro H. assert (In c' (map fst (class_add L c g))) as X.
  { destruct (class_add_fst L c g) as [->|[-> _]]; [exact H|apply in_or_app; auto]. }
  apply in_map_iff in X as ([c1 gs] & <- & X). exists gs. exact X.
Qed.
Lemma classes_add L f c g : classes L f -> f g = None ->
  classes (class_add L c g) (fun x => if (x =? g)%N then Some c else f x).
Proof.
  intros [ND CI CA] FG. split.
  - destruct (class_add_fst L c g) as [->|[-> N0]]; [exact ND|].
    apply NoDup_snoc; assumption.
  - intros c' gs' x H. destruct (class_add_in _ _ _ _ _ ND H) as [[NC I0]|[-> [(gs & I0 & ->)|[N0 ->]]]].
    + rewrite (CI _ _ x I0). destruct (N.eqb_spec x g) as [->|]; [|reflexivity].
      rewrite FG. split; [discriminate|]. intro E. injection E as E. congruence.
    + rewrite in_app_iff, (CI _ _ x I0). destruct (N.eqb_spec x g) as [->|NX].
      * split; [reflexivity|]. intros _. right. left. reflexivity.
      * split; [intros [E|[E|[]]]; [exact E|congruence]|auto].
    + destruct (N.eqb_spec x g) as [->|NX]; [split; [reflexivity|left; reflexivity]|].
      split; [intros [E|[]]; congruence|]. intro E. destruct (CA _ _ E) as [gs I0]. exfalso. apply N0.
      apply in_map_iff. exists (c, gs). auto.
  - intros c' x H. destruct (x =? g)%N.
    + injection H as <-. apply class_add_has.
    + destruct (CA _ _ H) as [gs I0]. apply class_add_keeps. apply in_map_iff. exists (c', gs). auto.
Qed.
Lemma classes_ext L f g : classes L f -> (forall x, f x = g x) -> classes L g.
Proof.
  intros [A B C] E. split; [exact A| |].
  - intros c gs x H. rewrite <- E. apply B, H.
  - intros c x H. rewrite <- E in H. eauto.
Qed.
Lemma right_classes_spec cd2 : NoDup (map fst cd2) -> classes (right_classes cd2) (assoc cd2).
Proof.
  unfold right_classes. intros ND.
  assert (G : forall cd L f, NoDup (map fst cd) -> (forall x, In x (map fst cd) -> f x = None) -> classes L f ->
    classes (fold_left (fun m e => class_add m (snd e) (fst e)) cd L) (fun x => orelse (f x) (assoc cd x))).
  { induction cd as [|[g c] cd IH]; intros L f ND0 FN CL; cbn [fold_left].
    - eapply classes_ext; [exact CL|]. intro x. cbn. destruct (f x); reflexivity.
    - inversion_clear ND0 as [|? ? N0 ND1]. cbn [fst snd map] in *.
      pose proof (classes_add L f c g CL (FN g (or_introl eq_refl))) as CA.
      eapply classes_ext; [apply IH; [exact ND1| |exact CA]|].
      + intros x X. cbn beta. destruct (N.eqb_spec x g) as [->|]; [contradiction|]. apply FN. right. exact X.
      + intro x. cbn [assoc]. destruct (N.eqb_spec x g) as [->|]; [|reflexivity].
        rewrite (FN g (or_introl eq_refl)). reflexivity. }
  eapply classes_ext; [apply (G cd2 [] (fun _ => None)); [exact ND|reflexivity|]|reflexivity].
  split; [constructor| |discriminate]. intros ? ? ? [].
Qed.
(** the class in which the reader puts a first glyph *)
Definition left_class (cov : list glyph) (cd1 : list (glyph * nat)) (a : N) : option nat :=
  match assoc cd1 a with
  | Some (S c) => Some (S c)
  | _ => if mem a cov then Some 0 else None
  end.
Lemma left_classes_spec cov cd1 : NoDup (map fst cd1) -> classes (left_classes cov cd1) (left_class cov cd1).
Proof.
  intros ND. unfold left_classes. set (cg := map fst (filter (fun e => negb (snd e =? 0)) cd1)).
  assert (CG : forall x, In x cg <-> exists c, assoc cd1 x = Some (S c)).
  { intro x. unfold cg. rewrite in_map_iff. split.
    - intros ([y c] & E & H). cbn in E. subst y. apply filter_In in H as [H1 H2]. cbn in H2.
      destruct c as [|c]; [discriminate|]. exists c. apply assoc_of_in; assumption.
    - intros [c H]. exists (x, S c). split; [reflexivity|]. apply filter_In. split; [apply assoc_in, H|reflexivity]. }
  set (f0 := fun x => if mem x cov && negb (mem x cg) then Some 0 else None).
  assert (G : forall cd L f, NoDup (map fst cd) -> (forall x c, In (x, S c) cd -> f x = None) -> classes L f ->
    classes (fold_left (fun m e => if snd e =? 0 then m else class_add m (snd e) (fst e)) cd L)
      (fun x => orelse (f x) (match assoc cd x with Some (S c) => Some (S c) | _ => None end))).
  { induction cd as [|[g c] cd IH]; intros L f ND0 FN CL; cbn [fold_left].
    - eapply classes_ext; [exact CL|]. intro x. cbn. destruct (f x); reflexivity.
    - inversion_clear ND0 as [|? ? N0 ND1]. cbn [fst snd map] in *. destruct c as [|c]; cbn [Nat.eqb].
      + eapply classes_ext; [apply IH; [exact ND1| |exact CL]|].
        * intros x c X. eapply FN. right. exact X.
        * intro x. cbn beta. cbn [assoc]. destruct (N.eqb_spec x g) as [->|]; [|reflexivity].
          replace (assoc cd g) with (@None nat) by (symmetry; apply assoc_none; exact N0). reflexivity.
      + pose proof (classes_add L f (S c) g CL (FN g c (or_introl eq_refl))) as CA.
        eapply classes_ext; [apply IH; [exact ND1| |exact CA]|].
        * intros x c' X. cbn beta. destruct (N.eqb_spec x g) as [->|].
          -- exfalso. apply N0. apply in_map_iff. exists (g, S c'). auto.
          -- eapply FN. right. exact X.
        * intro x. cbn beta. cbn [assoc]. destruct (N.eqb_spec x g) as [->|]; [|reflexivity].
          rewrite (FN g c (or_introl eq_refl)). reflexivity. }
  eapply classes_ext; [apply (G cd1 _ f0 ND)|].
  - intros x c X. unfold f0. replace (mem x cg) with true; [rewrite andb_false_r; reflexivity|].
    symmetry. apply mem_in, CG. exists c. apply assoc_of_in; assumption.
  - split; [repeat constructor; intros []| |].
    + intros c gs g [E|[]]. injection E as <- <-. rewrite filter_In, distinct_in. unfold f0.
      destruct (mem g cov) eqn:M; cbn [andb].
      * apply mem_in in M. destruct (mem g cg); cbn; (split; [intros [_ X]; congruence|intro X; try discriminate X; auto]).
      * split; [|discriminate]. intros [X _]. apply mem_in in X. congruence.
    + intros c g H. unfold f0 in H. destruct (mem g cov && negb (mem g cg)); [|discriminate]. injection H as <-.
      eexists. left. reflexivity.
  - intro x. unfold left_class, f0. destruct (mem x cg) eqn:M.
    + apply mem_in, CG in M as [c ->]. rewrite andb_false_r. reflexivity.
    + assert (match assoc cd1 x with Some (S _) => false | _ => true end = true) as X.
      { destruct (assoc cd1 x) as [[|c]|] eqn:A; try reflexivity. exfalso.
        assert (In x cg) as Y by (apply CG; eauto). apply mem_in in Y. congruence. }
      destruct (assoc cd1 x) as [[|c]|]; try discriminate; rewrite andb_true_r; destruct (mem x cov); reflexivity.
Qed.

Definition class_value (vf : N) (v : value) : option kval :=
  if ((vf =? 4) || (vf =? 5))%N then
    if (v_xadv v =? 0)%Z then None
    else Some (if (vf =? 5)%N then KRtl (v_xpl v) (v_xadv v) else KNum (v_xadv v))
  else None.
(** the value a subtable of format 2 offers for a pair *)
Definition by_class (p : pairpos) (a b : N) : option kval :=
  match p with
  | PP2 cov vf cd1 cd2 recs =>
      match left_class cov cd1 a, assoc cd2 b with
      | Some i, Some j => class_value vf (cell recs i j)
      | _, _ => None
      end
  | _ => None
  end.

(** a loop that fills what is still missing *)
Fixpoint first_some {A B} (g : A -> option B) (l : list A) : option B :=
  match l with [] => None | x :: r => orelse (g x) (first_some g r) end.
Lemma first_some_none {A B} (g : A -> option B) l : (forall x, In x l -> g x = None) -> first_some g l = None.
Proof.
  induction l as [|x l IH]; intros H; cbn; [reflexivity|]. rewrite (H x (or_introl eq_refl)). cbn. apply IH.
  intros y Y. apply H. right. exact Y.
Qed.
Lemma first_some_one {A B} (g : A -> option B) l k :
  (forall x, In x l -> g x = None \/ g x = Some k) -> (exists x, In x l /\ g x = Some k) -> first_some g l = Some k.
Proof.
  induction l as [|x l IH]; intros H [y [Y E]]; [contradiction|]. cbn.
  destruct (H x (or_introl eq_refl)) as [G|G]; rewrite G; cbn; [|reflexivity]. destruct Y as [->|Y]; [congruence|].
  apply IH; [intros z Z; apply H; right; exact Z|eauto].
Qed.
Lemma fill_foldM {A} (step : pairs -> A -> res pairs) (g : A -> N -> N -> option kval) l : forall m,
  (forall m x, In x l -> exists m', step m x = Ok m' /\ forall a b, pget m' (a, b) = orelse (pget m (a, b)) (g x a b)) ->
  exists m', foldM step l m = Ok m' /\
  forall a b, pget m' (a, b) = orelse (pget m (a, b)) (first_some (fun x => g x a b) l).
Proof.
  induction l as [|x l IH]; intros m H; cbn [foldM].
  - exists m. split; [reflexivity|]. intros a b. cbn. destruct (pget m (a, b)); reflexivity.
  - destruct (H m x (or_introl eq_refl)) as (m1 & E1 & H1). rewrite E1. cbn [bind].
    destruct (IH m1) as (m2 & E2 & H2). { intros m0 y Y. apply H. right. exact Y. }
    exists m2. split; [exact E2|]. intros a b. rewrite H2, H1. cbn [first_some].
    destruct (pget m (a, b)); cbn; [reflexivity|]. reflexivity.
Qed.

Lemma class_pairs_get m p : wf_pairpos p ->
  exists m', class_pairs m p = Ok m' /\ forall a b, pget m' (a, b) = orelse (pget m (a, b)) (by_class p a b).
Proof.
  destruct p as [cov vf sets|cov vf cd1 cd2 recs| |]; cbn [class_pairs by_class]; intros W;
    try (exists m; split; [reflexivity|]; intros a b; destruct (pget m (a, b)); reflexivity).
  destruct W as (W1 & W2 & W3 & W4 & W5 & W6).
  pose proof (left_classes_spec cov cd1 W2) as [LN LI LA]. pose proof (right_classes_spec cd2 W3) as [RN RI RA].
  assert (LB : forall i gs, In (i, gs) (left_classes cov cd1) -> i < length recs).
  { unfold left_classes. intros i gs H.
    assert (forall cd L, Forall (fun e => snd e < length recs) cd -> (forall i gs, In (i, gs) L -> i < length recs) ->
      NoDup (map fst L) ->
      forall i gs, In (i, gs) (fold_left (fun m e => if snd e =? 0 then m else class_add m (snd e) (fst e)) cd L) -> i < length recs) as X.
    { induction cd as [|[g c] cd IH]; intros L F HL NDL i0 gs0 H0; cbn in H0; [eauto|].
      inversion_clear F as [|? ? F1 F2]. cbn in F1. destruct (Nat.eqb_spec c 0).
      - eapply IH; eauto.
      - eapply IH; [exact F2| | |exact H0].
        + intros i1 gs1 H1. apply class_add_in in H1; [|exact NDL].
          destruct H1 as [[? ?]|[-> _]]; [eauto|exact F1].
        + destruct (class_add_fst L c g) as [->|[-> N0]]; [exact NDL|].
          apply NoDup_snoc; assumption. }
    eapply X; [exact W5| | |exact H]; [|repeat constructor; intros []].
    intros i0 gs0 [E|[]]. injection E as <- _. exact W4. }
  assert (RB : forall j gs, In (j, gs) (right_classes cd2) -> forall row, In row recs -> j < length row).
  { intros j gs H row HR.
    assert (In j (map snd cd2)) as J.
    { unfold right_classes in H.
      assert (forall cd L, (forall i gs, In (i, gs) L -> In i (map snd cd2)) -> NoDup (map fst L) -> incl (map snd cd) (map snd cd2) ->
        forall i gs, In (i, gs) (fold_left (fun m e => class_add m (snd e) (fst e)) cd L) -> In i (map snd cd2)) as X.
      { induction cd as [|[g c] cd IH]; intros L HL NDL IC i0 gs0 H0; cbn in H0; [eauto|].
        eapply IH; [| | |exact H0].
        - intros i1 gs1 H1. apply class_add_in in H1; [|exact NDL].
          destruct H1 as [[? ?]|[-> _]]; [eauto|]. apply IC. left. reflexivity.
        - destruct (class_add_fst L c g) as [->|[-> N0]]; [exact NDL|].
          apply NoDup_snoc; assumption.
        - intros x Y. apply IC. right. exact Y. }
      eapply (X cd2 []); [intros ? ? []|constructor|apply incl_refl|exact H]. }
    apply in_map_iff in J as ([g c] & <- & J). rewrite Forall_forall in W6.
    pose proof (W6 _ HR) as R6. rewrite Forall_forall in R6. apply (R6 _ J). }
  destruct (fill_foldM (fun m cl => foldM (class_pair vf recs cl) (right_classes cd2) m)
    (fun cl a b => first_some (fun cr : nat * list glyph => if mem a (snd cl) && mem b (snd cr) then class_value vf (cell recs (fst cl) (fst cr)) else None)
                     (right_classes cd2)) (left_classes cov cd1) m) as (m' & E & H).
  { intros m0 [i ls] IL.
    apply (fill_foldM (class_pair vf recs (i, ls))
      (fun cr a b => if mem a (snd (i, ls)) && mem b (snd cr) then class_value vf (cell recs (fst (i, ls)) (fst cr)) else None)).
    intros m1 [j rs] IR. unfold class_pair. cbn [fst snd]. unfold nth_res.
    destruct (nth_error recs i) as [row|] eqn:NR; [|apply nth_error_None in NR; pose proof (LB _ _ IL); lia].
    cbn [bind]. assert (In row recs) as RR by (eapply nth_error_In; eauto).
    destruct (nth_error row j) as [v|] eqn:NV; [|apply nth_error_None in NV; pose proof (RB _ _ IR _ RR); lia].
    cbn [bind]. replace (cell recs i j) with v
      by (unfold cell; rewrite (nth_error_nth recs i [] NR); symmetry; apply nth_error_nth; exact NV).
    unfold class_value. destruct ((vf =? 4) || (vf =? 5))%N.
    - destruct (v_xadv v =? 0)%Z.
      + exists m1. split; [reflexivity|]. intros a b. destruct (mem a ls && mem b rs); destruct (pget m1 (a, b)); reflexivity.
      + eexists. split; [reflexivity|]. intros a b. apply product_get.
    - exists m1. split; [reflexivity|]. intros a b. destruct (mem a ls && mem b rs); destruct (pget m1 (a, b)); reflexivity. }
  exists m'. split; [exact E|]. intros a b. rewrite H. f_equal.
  destruct (left_class cov cd1 a) as [i|] eqn:LC.
  - destruct (assoc cd2 b) as [j|] eqn:RC.
    + destruct (class_value vf (cell recs i j)) as [k|] eqn:CV.
      * apply first_some_one.
        -- intros [i' ls] IL. cbn [fst snd]. destruct (mem a ls) eqn:MA; [|left; apply first_some_none; intros; reflexivity].
           apply mem_in in MA as MA'. apply (LI _ _ a IL) in MA'. rewrite LC in MA'. injection MA' as <-.
           right. apply first_some_one.
           ++ intros [j' rs] IR. cbn [fst snd]. try rewrite MA. cbn [andb]. destruct (mem b rs) eqn:MB; [|left; reflexivity].
              apply mem_in in MB. apply (RI _ _ b IR) in MB. rewrite RC in MB. injection MB as <-. right. exact CV.
           ++ destruct (RA _ _ RC) as [rs IR]. exists (j, rs). split; [exact IR|]. cbn [fst snd]. try rewrite MA.
              assert (mem b rs = true) as -> by (apply mem_in, (RI _ _ b IR), RC). exact CV.
        -- destruct (LA _ _ LC) as [ls IL]. exists (i, ls). split; [exact IL|]. cbn [fst snd].
           assert (mem a ls = true) as MA by (apply mem_in, (LI _ _ a IL), LC).
           apply first_some_one.
           ++ intros [j' rs] IR. cbn [fst snd]. try rewrite MA. cbn [andb]. destruct (mem b rs) eqn:MB; [|left; reflexivity].
              apply mem_in in MB. apply (RI _ _ b IR) in MB. rewrite RC in MB. injection MB as <-. right. exact CV.
           ++ destruct (RA _ _ RC) as [rs IR]. exists (j, rs). split; [exact IR|]. cbn [fst snd]. try rewrite MA.
              assert (mem b rs = true) as -> by (apply mem_in, (RI _ _ b IR), RC). exact CV.
      * apply first_some_none. intros [i' ls] IL. apply first_some_none. intros [j' rs] IR. cbn [fst snd].
        destruct (mem a ls) eqn:MA; [|reflexivity]. destruct (mem b rs) eqn:MB; [|reflexivity]. cbn [andb].
        apply mem_in in MA, MB. apply (LI _ _ a IL) in MA. apply (RI _ _ b IR) in MB. congruence.
    + apply first_some_none. intros [i' ls] IL. apply first_some_none. intros [j' rs] IR. cbn [fst snd].
      destruct (mem b rs) eqn:MB; [|rewrite andb_false_r; reflexivity]. apply mem_in in MB. apply (RI _ _ b IR) in MB. congruence.
  - apply first_some_none. intros [i' ls] IL. apply first_some_none. intros [j' rs] IR. cbn [fst snd].
    destruct (mem a ls) eqn:MA; [|reflexivity]. apply mem_in in MA. apply (LI _ _ a IL) in MA. congruence.
Qed.

(** ** All subtables *)
Lemma pairs_get ps : Forall wf_pairpos ps ->
  exists m m', foldM single_pairs ps [] = Ok m /\ foldM class_pairs ps m = Ok m' /\
  forall a b, pget m' (a, b) = orelse (last_listed ps a b) (first_some (fun p => by_class p a b) ps).
Proof.
  intro F. destruct (single_all ps [] F) as (m & E & H).
  destruct (fill_foldM class_pairs by_class ps m) as (m' & E' & H').
  { intros m0 p P. apply class_pairs_get. rewrite Forall_forall in F. auto. }
  exists m, m'. split; [exact E|]. split; [exact E'|]. intros a b. rewrite H', H. reflexivity.
Qed.
