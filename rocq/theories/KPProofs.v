(** * KPProofs: soundness and optimality of [optimum_fit]. *)
From Coq Require Import QArith Qcanon Sorted.
From Verif Require Import Base Num KnuthPlass KPSpec.
Open Scope nat_scope.

Section Proofs.
Context {NUM : Num}.
Lemma ratio_justified_spec m s h b W r :
  ratio_justified m s h b W = Ok r <->
  justified_ratio m (kb_incl_hyphen b) (kb_stretch b - s)%num (kb_shrink b - h)%num W r.
Proof.
  unfold ratio_justified, pdiv. set (L := (kb_incl_hyphen b - m)%num).
  split.
  - intros H.
    destruct (neqb (if nltb L W then (kb_stretch b - s)%num else (kb_shrink b - h)%num) n0) eqn:Z.
    + destruct (neqb L W) eqn:E.
      * inversion H; subst. apply jr_exact; auto.
      * destruct (neqb W n0) eqn:EW; cbn in H; [discriminate|]. inversion H; subst.
        apply jr_rigid; auto.
    + destruct (nltb L W) eqn:E; inversion H; subst; [apply jr_stretch | apply jr_shrink]; auto.
  - intros H. unfold L in *. clear L. inversion H; subst.
    + rewrite H0, H1. reflexivity.
    + rewrite H0, H1. reflexivity.
    + rewrite H1, H0. reflexivity.
    + rewrite H1, H0, H2. reflexivity.
Qed.
Lemma ratio_ragged_spec m s h b W r :
  ratio_ragged m s h b W = Ok r <-> ragged_ratio m (kb_incl_hyphen b) (kb_stretch b) W r.
Proof.
  unfold ratio_ragged, pdiv. set (L := (W - kb_incl_hyphen b + m)%num).
  split.
  - intros H. destruct (nleb n0 L) eqn:E.
    + destruct (neqb (kb_stretch b) n0) eqn:Z; inversion H; subst. apply rr_fits; auto.
    + inversion H; subst. apply rr_overfull; auto.
  - intros H. unfold L in *. clear L. inversion H; subst; rewrite H0; [rewrite H1|]; reflexivity.
Qed.
Lemma fitness_spec r c : is_class r c <-> c = fitness r.
Proof.
  unfold fitness. split.
  - destruct c as [|[|[|[|c]]]]; cbn; intros H.
    + rewrite H; auto.
    + destruct H as (-> & ->); auto.
    + destruct H as (-> & -> & H). change n1 with (nZ 1). rewrite H; auto.
    + destruct H as (-> & -> & H). change n1 with (nZ 1). rewrite H; auto.
    + contradiction.
  - intros ->. destruct (nltb r (nQ (-1 # 2))) eqn:A; cbn; auto.
    destruct (nleb r (nQ (1 # 2))) eqn:B; cbn; auto.
    change n1 with (nZ 1).
    destruct (nleb r (nZ 1)) eqn:C; cbn; auto.
Qed.
Lemma contrasting_eq a b : contrasting a b = contrast a b.
Proof.
  unfold contrasting, contrast.
  destruct (Nat.leb_spec a (b + 1)), (Nat.leb_spec b (a + 1)), (Nat.ltb_spec 1 (a - b)), (Nat.ltb_spec 1 (b - a));
    cbn; auto; lia.
Qed.
Lemma line_demerits_eq P r h n :
  line_demerits (p_hyphen P) (p_consecutive P) (p_fitness P) r h n
  = (demerits P r h (n_hyphenated n) (fitness r) (n_fitness n) + n_demerits n)%num.
Proof. unfold demerits. rewrite contrasting_eq. reflexivity. Qed.

Section Fit.
Variables (bs : list kbox) (width : nat -> num) (t : tol) (P : params) (ragged : bool).
Notation node_ratio := (node_ratio width ragged).
Notation line_ratio := (line_ratio bs width ragged).
Notation breaking := (breaking bs width t P ragged).

(** A prefix of a breaking: lines [l] up to position [i], [k] of them *)
Inductive pre : nat -> nat -> nat -> bool -> num -> list (nat * num) -> Prop :=
| pre_nil : pre 0 0 1 false n0 []
| pre_snoc k i c h d l p b r c' :
    pre k i c h d l ->
    i < p < List.length bs -> nth_error bs (p - 1) = Some b -> kb_no_break b = false ->
    line_ratio k i p r -> nltb r (nZ (-1)) = false -> within r t = true -> is_class r c' ->
    pre (S k) p c' (kb_hyphenated b) (demerits P r (kb_hyphenated b) h c' c + d)%num (l ++ [(p, r)]).
Lemma pre_breaking k i c h d l : pre k i c h d l -> forall l' total,
  breaking k i c h d l' total -> feasible bs width t P ragged (l ++ l') total.
Proof.
  induction 1; intros l' total B; auto.
  rewrite <- app_assoc. apply IHpre. cbn. eapply br_line; eauto.
Qed.
Lemma breaking_pre k i c h d l' total : breaking k i c h d l' total ->
  forall l, pre k i c h d l ->
  exists k' i' c' h' d' l'' q r cl, pre k' i' c' h' d' l'' /\ i' < List.length bs
    /\ line_ratio k' i' (List.length bs) q /\ r = nmin q n0 /\ nltb (nZ (-1)) r = true /\ is_class r cl
    /\ l ++ l' = l'' ++ [(List.length bs, r)] /\ total = (last_demerits P r cl c' + d')%num.
Proof.
  induction 1; intros l0 PRE0.
  - exists k, i, c, h, d, l0, q, r, c'. repeat split; auto.
  - destruct (IHbreaking (l0 ++ [(p, r)])) as (k' & i' & cc & h' & d' & l'' & q & r' & cl & A & B & C & D & E & F & G & I).
    { eapply pre_snoc; eauto. }
    exists k', i', cc, h', d', l'', q, r', cl. rewrite <- app_assoc in G. repeat split; auto.
Qed.
Lemma pre_pos k i c h d l : pre k i c h d l ->
  (i = 0 /\ k = 0 /\ c = 1 /\ h = false /\ d = n0) \/
  (exists b, 0 < i < List.length bs /\ nth_error bs (i - 1) = Some b /\ kb_no_break b = false /\ h = kb_hyphenated b).
Proof. destruct 1; [left; auto|]. right. exists b. repeat split; auto; lia. Qed.

(** the nodes a node was reached from *)
Fixpoint chain (n : node) : Prop :=
  match n with
  | Root => True
  | Node pos _ _ _ _ m _ _ _ p =>
      (exists b, nth_error bs (pos - 1) = Some b /\ m = kb_incl_space b) /\ n_pos p < pos /\ chain p
  end.
(** what the nodes of the network stand for *)
Definition good (n : node) : Prop :=
  pre (n_line n) (n_pos n) (n_fitness n) (n_hyphenated n) (n_demerits n)
      (map (fun x => (br_pos x, br_adjust x)) (unroll_node n))
  /\ line_start bs (n_pos n) (n_measure n) (n_stretch n) (n_shrink n) /\ chain n.
Lemma good_root : good Root.
Proof. split; [constructor|]. cbn. auto. Qed.
Lemma line_start_det i f g h f' g' h' : line_start bs i f g h -> line_start bs i f' g' h' -> f = f' /\ g = g' /\ h = h'.
Proof.
  destruct i; cbn; [intuition congruence|].
  intros (a & b & A & B & -> & -> & ->) (a' & b' & A' & B' & -> & -> & ->).
  rewrite A in A'; rewrite B in B'. inversion A'; inversion B'; subst; auto.
Qed.
Lemma node_ratio_spec n b j r : good n -> 0 < j -> nth_error bs (j - 1) = Some b ->
  (node_ratio n b = Ok r <-> line_ratio (n_line n) (n_pos n) j r).
Proof.
  intros (_ & G & _) Hj Hb. unfold KnuthPlass.node_ratio, KPSpec.line_ratio, ratio_fn.
  split.
  - intros H. exists b, (n_measure n), (n_stretch n), (n_shrink n). repeat split; auto.
    destruct ragged; [apply ratio_ragged_spec in H | apply ratio_justified_spec in H]; auto.
  - intros (b' & f & g & h & _ & Hb' & S & R). rewrite Hb in Hb'. inversion Hb'; subst b'.
    destruct (line_start_det _ _ _ _ _ _ _ S G) as (-> & -> & ->).
    destruct ragged; [apply ratio_ragged_spec | apply ratio_justified_spec]; auto.
Qed.
Lemma next_good n p b bn r : good n -> n_pos n < p -> 
  nth_error bs (p - 1) = Some b -> nth_error bs p = Some bn -> kb_no_break b = false ->
  node_ratio n b = Ok r -> nltb r (nZ (-1)) = false -> within r t = true ->
  good (next_node P p b bn n r).
Proof.
  intros G Hp Hb Hbn NB R L W. split.
  - cbn [next_node n_line n_pos n_fitness n_hyphenated n_demerits unroll_node].
    rewrite map_app, line_demerits_eq. cbn [map br_pos br_adjust].
    eapply pre_snoc; eauto.
    + apply G.
    + split; [auto|]. apply nth_error_Some. congruence.
    + eapply node_ratio_spec; eauto; lia.
    + apply fitness_spec; auto.
  - split.
    + cbn [next_node n_pos n_measure n_stretch n_shrink]. destruct p; [lia|]. cbn.
      cbn in Hb. rewrite Nat.sub_0_r in Hb. exists b, bn. auto.
    + cbn [next_node chain]. split; [exists b; auto|]. split; [auto|apply G].
Qed.

(** *** the network *)
Lemma net_add_in g n x : In x (net_add g n) -> x = n \/ In x g.
Proof.
  induction g as [|y g IH]; cbn; [intuition|].
  destruct (same_key y n).
  - destruct (nltb (n_demerits n) (n_demerits y)); cbn; intuition.
  - cbn. intuition.
Qed.
Lemma net_remove_in g n x : In x (net_remove g n) -> In x g.
Proof.
  induction g as [|y g IH]; cbn; auto. destruct (same_key y n); cbn; intuition.
Qed.
Definition all_good (p : nat) (g : list node) := Forall (fun n => good n /\ n_pos n < p) g.
Lemma visit_good nodes p b bn : nth_error bs (p - 1) = Some b -> nth_error bs p = Some bn -> kb_no_break b = false ->
  all_good p nodes -> forall g g', all_good (S p) g -> visit width t P ragged nodes p b bn g = Ok g' -> all_good (S p) g'.
Proof.
  intros Hb Hbn NB N. induction N as [|n ns (G & Gp) N IH]; cbn [visit]; intros g g' A H.
  - inversion H; subst; auto.
  - destruct (node_ratio n b) as [r|] eqn:R; cbn in H; [|discriminate].
    apply IH in H; auto.
    apply Forall_forall. intros x Hx. unfold all_good in A. rewrite Forall_forall in A.
    destruct (nltb r (nZ (-1))) eqn:L; [apply net_remove_in in Hx; auto|].
    destruct (within r t) eqn:W; auto.
    apply net_add_in in Hx as [->|]; auto. split; [eapply next_good; eauto|]. cbn; lia.
Qed.
Lemma all_good_S p g : all_good p g -> all_good (S p) g.
Proof. apply Forall_impl. intuition. Qed.
Definition rest_of (p : nat) (b : kbox) (rest : list kbox) :=
  0 < p /\ nth_error bs (p - 1) = Some b /\ (forall i, nth_error rest i = nth_error bs (p + i)).
Lemma rest_of_next p b x rest : rest_of p b (x :: rest) -> nth_error bs p = Some x /\ rest_of (S p) x rest.
Proof.
  intros (A & B & C). pose proof (C 0) as E. cbn in E. rewrite Nat.add_0_r in E.
  split; auto. repeat split; [lia|cbn; rewrite Nat.sub_0_r; auto|].
  intros i. specialize (C (S i)). cbn in C. rewrite C. f_equal. lia.
Qed.
Lemma rest_of_len p b : rest_of p b [] -> p = List.length bs.
Proof.
  intros (A & B & C). specialize (C 0). cbn in C. rewrite Nat.add_0_r in C.
  symmetry in C. apply nth_error_None in C. assert (p - 1 < List.length bs) by (apply nth_error_Some; congruence). lia.
Qed.
Lemma scan_good rest : forall b p g g' last pos, rest_of p b rest -> all_good p g ->
  scan width t P ragged b rest p g = Ok (g', last, pos) ->
  all_good pos g' /\ rest_of pos last [] .
Proof.
  induction rest as [|bn rest IH]; intros b p g g' last pos R A H; cbn [scan] in H.
  - inversion H; subst; auto.
  - destruct (rest_of_next _ _ _ _ R) as (Hbn & R').
    destruct (kb_no_break b) eqn:NB.
    + eapply IH; eauto. apply all_good_S; auto.
    + destruct g as [|n0' g0] eqn:Eg; [discriminate|]. rewrite <- Eg in *.
      destruct (visit width t P ragged g p b bn g) as [g1|] eqn:V; cbn in H; [|discriminate].
      eapply IH; eauto. eapply visit_good; [apply R|eauto|eauto|exact A|apply all_good_S, A|exact V].
Qed.
Lemma end_options_in nodes b pos opts : end_options width P ragged nodes b pos = Ok opts ->
  forall e, In e opts -> exists n q, In n nodes /\ node_ratio n b = Ok q
    /\ e_prev e = n /\ e_pos e = pos /\ e_ratio e = nmin q n0 /\ nltb (nZ (-1)) (nmin q n0) = true
    /\ e_demerits e = (last_demerits P (nmin q n0) (fitness (nmin q n0)) (n_fitness n) + n_demerits n)%num
    /\ e_measure e = kb_incl_space b.
Proof.
  revert opts. induction nodes as [|n ns IH]; cbn [end_options]; intros opts H e He.
  - inversion H; subst. contradiction.
  - destruct (node_ratio n b) as [q|] eqn:R; cbn in H; [|discriminate].
    destruct (end_options width P ragged ns b pos) as [rest|]; cbn in H; [|discriminate].
    inversion H; subst; clear H.
    assert (D : In e rest -> exists n1 q0, In n1 (n :: ns) /\ node_ratio n1 b = Ok q0
      /\ e_prev e = n1 /\ e_pos e = pos /\ e_ratio e = nmin q0 n0 /\ nltb (nZ (-1)) (nmin q0 n0) = true
      /\ e_demerits e = (last_demerits P (nmin q0 n0) (fitness (nmin q0 n0)) (n_fitness n1) + n_demerits n1)%num
      /\ e_measure e = kb_incl_space b).
    { intros I. destruct (IH _ eq_refl _ I) as (n1 & q1 & I1 & X). exists n1, q1. split; [right; auto|auto]. }
    destruct (nltb (nZ (-1)) (nmin q n0)) eqn:L; auto.
    destruct He as [<-|He]; auto.
    exists n, q. cbn. repeat split; auto. unfold last_demerits. rewrite contrasting_eq. reflexivity.
Qed.
Lemma least_in l : forall e, In (least e l) (e :: l).
Proof.
  induction l as [|x l IH]; intros e; cbn; auto.
  destruct (nltb (e_demerits x) (e_demerits e)); destruct (IH x), (IH e); auto.
Qed.

Lemma optimum_fit_inv brs : bs <> [] -> optimum_fit width t P ragged bs = Ok brs ->
  exists g last opts e, all_good (List.length bs) g
    /\ (exists b0 rest, bs = b0 :: rest /\ scan width t P ragged b0 rest 1 [Root] = Ok (g, last, List.length bs))
    /\ nth_error bs (List.length bs - 1) = Some last
    /\ end_options width P ragged g last (List.length bs) = Ok opts /\ In e opts
    /\ (exists e0 l, opts = e0 :: l /\ e = least e0 l) /\ brs = unroll e.
Proof.
  intros NE H. unfold optimum_fit in H. destruct bs as [|b0 rest] eqn:Ebs; [congruence|]. rewrite <- Ebs in *.
  destruct (scan width t P ragged b0 rest 1 [Root]) as [[[g last] pos]|] eqn:S; cbn in H; [|discriminate].
  assert (R : rest_of 1 b0 rest). { repeat split; [lia|rewrite Ebs; auto|intros i; rewrite Ebs; auto]. }
  destruct (scan_good rest b0 1 [Root] g last pos) as (A & B); auto.
  { constructor; [|constructor]. split; [apply good_root|cbn; lia]. }
  pose proof (rest_of_len _ _ B) as ->.
  destruct (end_options width P ragged g last (List.length bs)) as [opts|] eqn:O; cbn in H; [|discriminate].
  destruct opts as [|e l]; [discriminate|]. inversion H; subst brs.
  exists g, last, (e :: l), (least e l). repeat split; auto.
  - exists b0, rest. auto.
  - apply B.
  - apply least_in.
  - exists e, l. auto.
Qed.
Lemma end_feasible g last opts e : all_good (List.length bs) g -> nth_error bs (List.length bs - 1) = Some last ->
  end_options width P ragged g last (List.length bs) = Ok opts -> In e opts ->
  feasible bs width t P ragged (map (fun x => (br_pos x, br_adjust x)) (unroll e)) (e_demerits e).
Proof.
  intros A L O I. destruct (end_options_in _ _ _ _ O _ I) as (n & q & In_n & R & Ep & Epos & Er & M & Ed & Em).
  unfold all_good in A. rewrite Forall_forall in A. destruct (A _ In_n) as ((G1 & G2) & Hp).
  unfold unroll. rewrite map_app, Ep. cbn [map br_pos br_adjust]. rewrite Epos, Er, Ed.
  eapply pre_breaking; [apply G1|]. eapply br_last; eauto.
  - eapply node_ratio_spec; eauto. split; auto. lia.
  - apply fitness_spec; auto.
Qed.
Lemma optimum_fit_sound brs : bs <> [] -> optimum_fit width t P ragged bs = Ok brs ->
  exists total, feasible bs width t P ragged (map (fun x => (br_pos x, br_adjust x)) brs) total.
Proof.
  intros NE H. destruct (optimum_fit_inv _ NE H) as (g & last & opts & e & A & _ & L & O & I & _ & ->).
  eexists. eapply end_feasible; eauto.
Qed.

(** *** completeness *)
Hypothesis ORD : ordered NUM.
Definition covers (g : list node) (k i c : nat) (d : num) : Prop :=
  exists n, In n g /\ n_line n = k /\ n_pos n = i /\ n_fitness n = c /\ nltb d (n_demerits n) = false.
Lemma same_key_eq a b : same_key a b = true <-> n_line a = n_line b /\ n_pos a = n_pos b /\ n_fitness a = n_fitness b.
Proof. unfold same_key. rewrite !andb_true_iff, !Nat.eqb_eq. tauto. Qed.
Lemma add_covers g n k i c d : covers g k i c d -> covers (net_add g n) k i c d.
Proof.
  intros (x & I & A & B & C & D). induction g as [|y g IH]; [destruct I|].
  cbn [net_add]. destruct (same_key y n) eqn:K.
  - destruct (nltb (n_demerits n) (n_demerits y)) eqn:L.
    + destruct I as [->|I].
      * apply same_key_eq in K as (K1 & K2 & K3). exists n. split; [left; auto|].
        repeat split; try congruence. eapply (o_trans _ ORD); [|exact D].
        apply (o_asym _ ORD). auto.
      * exists x. split; [right; auto|]. auto.
    + exists x. auto.
  - destruct I as [->|I].
    + exists x. split; [left; auto|]. auto.
    + destruct (IH I) as (z & Z & ?). exists z. split; [right; auto|]; auto.
Qed.
Lemma add_new g n : covers (net_add g n) (n_line n) (n_pos n) (n_fitness n) (n_demerits n).
Proof.
  induction g as [|y g IH]; cbn [net_add].
  - exists n. split; [left; auto|]. repeat split; auto. apply (o_refl _ ORD).
  - destruct (same_key y n) eqn:K.
    + destruct (nltb (n_demerits n) (n_demerits y)) eqn:L.
      * exists n. split; [left; auto|]. repeat split; auto. apply (o_refl _ ORD).
      * apply same_key_eq in K as (K1 & K2 & K3). exists y. split; [left; auto|]. auto.
    + destruct IH as (z & Z & ?). exists z. split; [right; auto|]; auto.
Qed.
Lemma remove_covers g n k i c d : covers g k i c d ->
  ~ (n_line n = k /\ n_pos n = i /\ n_fitness n = c) -> covers (net_remove g n) k i c d.
Proof.
  intros (x & I & A & B & C & D) NK. exists x. split; auto.
  induction g as [|y g IH]; [destruct I|]. cbn [net_remove].
  destruct (same_key y n) eqn:K.
  - destruct I as [->|I]; auto. apply same_key_eq in K. exfalso. apply NK. intuition congruence.
  - destruct I as [->|I]; [left; auto|right; auto].
Qed.
Lemma covers_le g k i c d d' : covers g k i c d -> nltb d' d = false -> covers g k i c d'.
Proof.
  intros (x & I & A & B & C & D) L. exists x. repeat split; auto. eapply (o_trans _ ORD); eauto.
Qed.
Lemma visit_covers p b bn nodes : Forall (fun n => n_pos n < p) nodes ->
  forall g g', visit width t P ragged nodes p b bn g = Ok g' ->
  (forall k i c d, covers g k i c d ->
     covers g' k i c d \/ exists n r, In n nodes /\ n_line n = k /\ n_pos n = i /\ node_ratio n b = Ok r /\ nltb r (nZ (-1)) = true)
  /\ (forall n r, In n nodes -> node_ratio n b = Ok r -> nltb r (nZ (-1)) = false -> within r t = true ->
       let n' := next_node P p b bn n r in covers g' (n_line n') (n_pos n') (n_fitness n') (n_demerits n')).
Proof.
  induction 1 as [|n ns Hn N IH]; cbn [visit]; intros g g' H.
  - inversion H; subst. split; auto. intros n r [].
  - destruct (node_ratio n b) as [r|] eqn:R; cbn in H; [|discriminate].
    destruct (IH _ _ H) as (I1 & I2). split.
    + intros k i c d C.
      destruct (nltb r (nZ (-1))) eqn:L.
      * destruct (Nat.eq_dec (n_line n) k) as [Ek|NEk];
          [destruct (Nat.eq_dec (n_pos n) i) as [Ei|NEi]|].
        { right. exists n, r. split; [left; auto|auto]. }
        all: destruct (I1 k i c d) as [X|(n1 & r1 & X & Y)];
          [apply remove_covers; auto; intros (? & ? & ?); congruence | auto | right; exists n1, r1; split; [right; auto|auto]].
      * destruct (I1 k i c d) as [X|(n1 & r1 & X & Y)]; auto.
        { destruct (within r t); auto. apply add_covers; auto. }
        { right. exists n1, r1. split; [right; auto|auto]. }
    + intros m s [<-|Hm] Rm Lm Wm; [|apply I2; auto].
      rewrite R in Rm. inversion Rm; subst s. rewrite Lm, Wm in H, I1.
      pose proof (add_new g (next_node P p b bn n r)) as C. cbn zeta.
      destruct (I1 _ _ _ _ C) as [X|(n1 & r1 & X & Y & Z & _)]; auto.
      exfalso. cbn in Z. rewrite Forall_forall in N. specialize (N _ X). lia.
Qed.

Definition dead (k i p : nat) : Prop :=
  exists j b r, i < j < p /\ nth_error bs (j - 1) = Some b /\ kb_no_break b = false
    /\ line_ratio k i j r /\ nltb r (nZ (-1)) = true.
Definition inv (p : nat) (g : list node) : Prop :=
  forall k i c h d l, pre k i c h d l -> i < p -> dead k i p \/ covers g k i c d.
Lemma dead_S k i p : dead k i p -> dead k i (S p).
Proof. intros (j & b & r & ? & X). exists j, b, r. split; [lia|auto]. Qed.
Hypothesis STAYS : overfull_stays bs width ragged.
Lemma dead_not k i p j r : dead k i p -> p <= j <= List.length bs -> line_ratio k i j r -> nltb r (nZ (-1)) = true.
Proof.
  intros (j' & b & r' & L & B & NB & R & O) J Rj. eapply (STAYS k i j' j); eauto; lia.
Qed.
Lemma pre_hyph k i c h d l : pre k i c h d l -> forall n, good n -> n_pos n = i -> n_hyphenated n = h.
Proof.
  intros A n (G & _) E. apply pre_pos in A. apply pre_pos in G. rewrite E in G.
  destruct A as [(? & ? & ? & ? & ?)|(b & ? & B & ? & ->)], G as [(? & ? & ? & ? & ?)|(b' & ? & B' & ? & ->)]; subst; try lia; try congruence.
Qed.
Lemma inv_step p b bn g g' : inv p g -> all_good p g -> 0 < p ->
  nth_error bs (p - 1) = Some b -> nth_error bs p = Some bn -> kb_no_break b = false ->
  visit width t P ragged g p b bn g = Ok g' -> inv (S p) g'.
Proof.
  intros I A Hp Hb Hbn NB V.
  assert (Hlen : p < List.length bs) by (apply nth_error_Some; congruence).
  unfold all_good in A. rewrite Forall_forall in A.
  assert (POS : Forall (fun n => n_pos n < p) g). { apply Forall_forall. intros x Hx. apply A in Hx. tauto. }
  destruct (visit_covers p b bn g POS g g' V) as (V1 & V2).
  intros k i c h d l PR Hi.
  assert (OLD : i < p -> dead k i (S p) \/ covers g' k i c d).
  { intros Hi'. destruct (I _ _ _ _ _ _ PR Hi') as [D|C]; [left; apply dead_S; auto|].
    destruct (V1 _ _ _ _ C) as [|(n & r & In_n & El & Ei & R & O)]; auto.
    left. exists p, b, r. repeat split; auto; try lia. subst k i. eapply node_ratio_spec; eauto. apply A; auto. }
  destruct (Nat.eq_dec i p) as [->|NE]; [|apply OLD; lia].
  right. inversion PR as [|k0 i0 c0 h0 d0 l0 p0 b0 r c' PR0 Hi0 Hb0 NB0 R0 L0 W0 CL]; subst; [lia|].
  rewrite Hb in Hb0. inversion Hb0; subst b0.
  destruct (I _ _ _ _ _ _ PR0 ltac:(lia)) as [D|(n & In_n & El & Ei & Ec & Ed)].
  { exfalso. rewrite (dead_not _ _ _ p r D ltac:(lia) R0) in L0. discriminate. }
  destruct (A _ In_n) as (G & Gp).
  assert (R : node_ratio n b = Ok r). { eapply node_ratio_spec; eauto. rewrite El, Ei. auto. }
  specialize (V2 n r In_n R L0 W0). cbn zeta in V2.
  cbn [next_node n_line n_pos n_fitness n_demerits] in V2. rewrite El in V2.
  apply fitness_spec in CL. rewrite CL.
  eapply covers_le; [exact V2|]. rewrite line_demerits_eq.
  rewrite Ec, (pre_hyph _ _ _ _ _ _ PR0 n G Ei). apply (o_add _ ORD). auto.
Qed.
Lemma inv_skip p b g : inv p g -> 0 < p -> nth_error bs (p - 1) = Some b -> kb_no_break b = true -> inv (S p) g.
Proof.
  intros I Hp Hb NB k i c h d l PR Hi.
  destruct (Nat.eq_dec i p) as [->|NE].
  - apply pre_pos in PR as [(? & _)|(b' & _ & Hb' & NB' & _)]; [lia|]. congruence.
  - destruct (I _ _ _ _ _ _ PR ltac:(lia)); auto. left; apply dead_S; auto.
Qed.
Lemma scan_inv rest : forall b p g, rest_of p b rest -> all_good p g -> inv p g ->
  match scan width t P ragged b rest p g with
  | Ok (g', _, pos) => inv pos g'
  | Err e => e = ENoFeasible -> exists q, 0 < q < List.length bs /\ inv q []
  end.
Proof.
  induction rest as [|bn rest IH]; intros b p g R A I; cbn [scan]; auto.
  destruct (rest_of_next _ _ _ _ R) as (Hbn & R'). destruct R as (Rp & Rb & _).
  assert (Hlen : p < List.length bs) by (apply nth_error_Some; congruence).
  destruct (kb_no_break b) eqn:NB.
  - apply IH; auto; [apply all_good_S; auto|]. eapply inv_skip; eauto.
  - destruct g as [|n0' g0] eqn:Eg; [intros _; exists p; split; [lia|auto]|]. rewrite <- Eg in *.
    destruct (visit width t P ragged g p b bn g) as [g1|e] eqn:V; cbn.
    + apply IH; auto; [eapply visit_good; [..|eauto]; eauto; apply all_good_S; auto|]. eapply inv_step; eauto.
    + intros ->. exfalso. clear -V. set (g' := g) in V at 2. clearbody g'. revert g' V.
      induction g as [|n ns IHn]; cbn [visit]; intros g' V; [discriminate|].
      destruct (node_ratio n b) as [r|e] eqn:R; cbn in V; [eapply IHn; eauto|].
      inversion V; subst. clear -R. unfold KnuthPlass.node_ratio, ratio_fn, ratio_ragged, ratio_justified, pdiv in R.
      destruct ragged.
      * destruct (nleb _ _); [|discriminate]. destruct (neqb _ _); discriminate.
      * destruct (neqb (if _ : bool then _ else _) _); [|discriminate]. destruct (neqb _ (width _)); [discriminate|].
        destruct (neqb _ _); discriminate.
Qed.
Lemma end_options_covers nodes b pos opts : end_options width P ragged nodes b pos = Ok opts ->
  forall n q, In n nodes -> node_ratio n b = Ok q -> nltb (nZ (-1)) (nmin q n0) = true ->
  exists e, In e opts /\ e_demerits e = (last_demerits P (nmin q n0) (fitness (nmin q n0)) (n_fitness n) + n_demerits n)%num.
Proof.
  revert opts. induction nodes as [|n ns IH]; cbn [end_options]; intros opts H m q [] R L.
  - subst m. rewrite R in H. cbn in H.
    destruct (end_options width P ragged ns b pos) as [rest|]; cbn in H; [|discriminate]. rewrite L in H.
    inversion H; subst. eexists. split; [left; reflexivity|]. cbn. unfold last_demerits. rewrite contrasting_eq. reflexivity.
  - destruct (node_ratio n b) as [q'|] eqn:R'; cbn in H; [|discriminate].
    destruct (end_options width P ragged ns b pos) as [rest|]; cbn in H; [|discriminate].
    destruct (IH _ eq_refl _ _ H0 R L) as (e & I & E). inversion H; subst.
    exists e. split; auto. destruct (nltb _ (nmin q' n0)); auto. right; auto.
Qed.
Lemma least_le l : forall e x, In x (e :: l) -> nltb (e_demerits x) (e_demerits (least e l)) = false.
Proof.
  induction l as [|y l IH]; intros e x I; cbn [least].
  - destruct I as [->|[]]. apply (o_refl _ ORD).
  - destruct (nltb (e_demerits y) (e_demerits e)) eqn:L.
    + destruct I as [->|I]; [|apply IH; auto].
      eapply (o_trans _ ORD); [apply IH; left; reflexivity|]. apply (o_asym _ ORD); auto.
    + destruct I as [->|[->|I]].
      * apply IH; left; auto.
      * eapply (o_trans _ ORD); [apply IH; left; reflexivity|]. auto.
      * apply IH; right; auto.
Qed.
Lemma over_end q : nltb q (nZ (-1)) = true -> nltb (nZ (-1)) (nmin q n0) = false.
Proof.
  intros H. unfold nmin. destruct (nltb n0 q) eqn:E; [|apply (o_asym _ ORD); auto].
  apply (o_asym _ ORD) in H. apply (o_asym _ ORD) in E.
  rewrite (o_trans _ ORD _ _ _ E H). auto.
Qed.
Lemma optimum_fit_complete l total : feasible bs width t P ragged l total ->
  match optimum_fit width t P ragged bs with
  | Ok brs => exists total', feasible bs width t P ragged (map (fun x => (br_pos x, br_adjust x)) brs) total'
              /\ nltb total total' = false
  | Err e => e <> ENoFeasible
  end.
Proof.
  intros F.
  destruct (breaking_pre _ _ _ _ _ _ _ F [] pre_nil) as (k & i & c & h & d & l'' & q & r & cl & PR & Hi & R & Er & L & CL & _ & ET).
  assert (NE : bs <> []). { intros E. rewrite E in Hi. cbn in Hi. lia. }
  assert (R1 : exists b0 rest, bs = b0 :: rest /\ rest_of 1 b0 rest).
  { destruct bs as [|b0 rest] eqn:Eb; [congruence|]. exists b0, rest. repeat split; rewrite ?Eb; cbn; auto. }
  destruct R1 as (b0 & rest & Ebs & R1).
  assert (A1 : all_good 1 [Root]). { constructor; [|constructor]. split; [apply good_root|cbn; lia]. }
  assert (I1 : inv 1 [Root]).
  { intros k1 i1 c1 h1 d1 l1 P1 Hi1. right. destruct (pre_pos _ _ _ _ _ _ P1) as [(-> & -> & -> & -> & ->)|(? & ? & _)]; [|lia].
    exists Root. split; [left; auto|]. repeat split; auto. apply (o_refl _ ORD). }
  pose proof (scan_inv rest b0 1 [Root] R1 A1 I1) as SI.
  assert (ALIVE : ~ dead k i (List.length bs)).
  { intros D. pose proof (dead_not _ _ _ (List.length bs) q D ltac:(lia) R) as O.
    apply over_end in O. rewrite <- Er in O. congruence. }
  destruct (optimum_fit width t P ragged bs) as [brs|e] eqn:O.
  - destruct (optimum_fit_inv _ NE O) as (g & last & opts & e & A & (b0' & rest' & Ebs' & S) & Hl & EO & Ie & (e0 & l0 & -> & ->) & ->).
    rewrite Ebs in Ebs'. inversion Ebs'; subst b0' rest'. rewrite S in SI.
    exists (e_demerits (least e0 l0)). split; [eapply end_feasible; eauto|].
    destruct (SI _ _ _ _ _ _ PR Hi) as [D|(n & In_n & El & Ei & Ec & Ed)]; [contradiction|].
    unfold all_good in A. rewrite Forall_forall in A. destruct (A _ In_n) as (G & _).
    assert (Rn : node_ratio n last = Ok q). { apply (node_ratio_spec n last (List.length bs) q); auto; [lia|]. rewrite El, Ei. auto. }
    rewrite Er in L.
    destruct (end_options_covers _ _ _ _ EO n q In_n Rn L) as (e' & Ie' & Ee').
    eapply (o_trans _ ORD); [apply (least_le _ _ _ Ie')|]. rewrite Ee', ET, Ec.
    apply fitness_spec in CL. rewrite CL, Er. apply (o_add _ ORD). auto.
  - intros ->. unfold optimum_fit in O. rewrite Ebs in O.
    destruct (scan width t P ragged b0 rest 1 [Root]) as [[[g last] pos]|e] eqn:S; cbn in O.
    + destruct (scan_good rest b0 1 [Root] g last pos R1 A1 S) as (A & B).
      pose proof (rest_of_len _ _ B) as ->.
      destruct (SI _ _ _ _ _ _ PR Hi) as [D|(n & In_n & El & Ei & Ec & Ed)]; [contradiction|].
      unfold all_good in A. rewrite Forall_forall in A. destruct (A _ In_n) as (G & _).
      assert (Rn : node_ratio n last = Ok q). { apply (node_ratio_spec n last (List.length bs) q); auto; [lia|apply B|]. rewrite El, Ei. auto. }
      destruct (end_options width P ragged g last (List.length bs)) as [opts|e] eqn:EO; cbn in O.
      * rewrite Er in L. destruct (end_options_covers _ _ _ _ EO n q In_n Rn L) as (e' & Ie' & Ee').
        destruct opts; [destruct Ie'|discriminate].
      * inversion O; subst. clear -EO. revert EO. generalize (List.length bs). intros m.
        induction g as [|n ns IHn]; cbn [end_options]; intros EO; [discriminate|].
        destruct (node_ratio n last) as [r|e] eqn:R; cbn in EO.
        { destruct (end_options width P ragged ns last m) as [|e] eqn:EO'; cbn in EO; [discriminate|].
          inversion EO; subst. auto. }
        inversion EO; subst. clear -R. unfold KnuthPlass.node_ratio, ratio_fn, ratio_ragged, ratio_justified, pdiv in R.
        destruct ragged.
        { destruct (nleb _ _); [|discriminate]. destruct (neqb _ _); discriminate. }
        destruct (neqb (if _ : bool then _ else _) _); [|discriminate]. destruct (neqb _ (width _)); [discriminate|].
        destruct (neqb _ _); discriminate.
    + inversion O; subst. destruct (SI eq_refl) as (q' & Q & I).
      destruct (Nat.lt_ge_cases i q') as [Hq|Hq].
      * destruct (I _ _ _ _ _ _ PR Hq) as [(j & b & r' & J & X)|(n & [] & _)].
        apply ALIVE. exists j, b, r'. split; [lia|auto].
      * (* the breaking has a prefix that ends before [q'] and the next line beyond it *)
        clear -PR Q I Hq STAYS. revert Hq.
        induction PR as [|k i c h d l p b r c' PR IH Hi Hb NB R L W CL]; intros Hq; [lia|].
        destruct (Nat.lt_ge_cases i q') as [Hi'|Hi']; auto.
        destruct (I _ _ _ _ _ _ PR Hi') as [D|(n & [] & _)].
        rewrite (dead_not _ _ _ p r D ltac:(lia) R) in L. discriminate.
Qed.
End Fit.
End Proofs.
