(** * GfmtProofs: what [%g] prints *)
From Verif Require Import Base Gfmt PdfSpec.
From Coq Require Import Qpower Lqa Qfield.
Open Scope nat_scope.

Definition QN (n : N) : Q := inject_Z (Z.of_N n).

Lemma QN_pos n : (n <> 0)%N -> (0 < QN n)%Q.
Proof. intros H. unfold QN. change 0%Q with (inject_Z 0). rewrite <- Zlt_Qlt. lia. Qed.
Lemma QN_mul a b : (QN (a * b) == QN a * QN b)%Q.
Proof. unfold QN. rewrite <- inject_Z_mult, N2Z.inj_mul. reflexivity. Qed.
Lemma QN_add a b : (QN (a + b) == QN a + QN b)%Q.
Proof. unfold QN. rewrite <- inject_Z_plus, N2Z.inj_add. reflexivity. Qed.
Lemma QN_le a b : (a <= b)%N <-> (QN a <= QN b)%Q.
Proof. unfold QN. rewrite <- Zle_Qle. lia. Qed.
Lemma QN_lt a b : (a < b)%N <-> (QN a < QN b)%Q.
Proof. unfold QN. rewrite <- Zlt_Qlt. lia. Qed.

Lemma p10_pos k : (0 < p10 k)%Q.
Proof. apply Qpower_0_lt. reflexivity. Qed.
Lemma p10_plus a b : (p10 (a + b) == p10 a * p10 b)%Q.
Proof. apply Qpower_plus. discriminate. Qed.
Lemma p10_opp a : (p10 (- a) == / p10 a)%Q.
Proof. apply Qpower_opp. Qed.
Lemma p10_le a b : (a <= b)%Z -> (p10 a <= p10 b)%Q.
Proof. intros. apply Qpower_le_compat_l; auto. discriminate. Qed.
Lemma p10_lt_inv a b : (p10 a < p10 b)%Q -> (a < b)%Z.
Proof. intros H. apply (Qpower_lt_compat_l_inv 10); [exact H | reflexivity]. Qed.
Lemma p10_N p : (p10 (Z.of_N p) == QN (10 ^ p))%Q.
Proof.
  unfold p10, QN. rewrite N2Z.inj_pow.
  change (10 # 1)%Q with (inject_Z 10). symmetry. apply Zpower_Qpower. lia.
Qed.

Lemma scale10_spec n d k : (d <> 0)%N ->
  let (n', d') := scale10 n d k in
  (d' <> 0)%N /\ (QN n' / QN d' == QN n / QN d * p10 k)%Q.
Proof.
  intros Hd. pose proof (QN_pos d Hd).
  destruct k as [|p|p]; cbn [scale10].
  - split; auto. change (p10 0) with 1%Q. field. lra.
  - split; auto. rewrite QN_mul.
    change (p10 (Z.pos p)) with (p10 (Z.of_N (N.pos p))). rewrite p10_N. field. lra.
  - assert (10 ^ N.pos p <> 0)%N by (apply N.pow_nonzero; lia).
    split; [lia|]. rewrite QN_mul.
    change (Z.neg p) with (- Z.of_N (N.pos p))%Z. rewrite p10_opp, p10_N.
    pose proof (QN_pos _ H0). field. lra.
Qed.

Lemma Qdiv_le a b c : (0 < b)%Q -> (a <= c * b <-> a / b <= c)%Q.
Proof.
  intros Hb. split; intros H.
  - apply Qle_shift_div_r; auto.
  - assert (a == a / b * b)%Q as -> by (field; lra). apply Qmult_le_compat_r; lra.
Qed.
Lemma Qdiv_ge a b c : (0 < b)%Q -> (c * b <= a <-> c <= a / b)%Q.
Proof.
  intros Hb. split; intros H.
  - apply Qle_shift_div_l; auto.
  - assert (a == a / b * b)%Q as -> by (field; lra). apply Qmult_le_compat_r; lra.
Qed.

Lemma geb10_spec n d k : (d <> 0)%N -> (n <> 0)%N ->
  geb10 n d k = true <-> (p10 k <= QN n / QN d)%Q.
Proof.
  intros Hd Hn. unfold geb10.
  pose proof (scale10_spec n d (- k) Hd) as Hs.
  destruct (scale10 n d (- k)) as [n' d']. destruct Hs as [Hd' Hs].
  rewrite N.leb_le, QN_le.
  pose proof (QN_pos _ Hd'). pose proof (p10_pos k).
  rewrite p10_opp in Hs.
  rewrite <- (Qmult_1_l (QN d')), Qdiv_ge by auto.
  rewrite Hs. fold (Qdiv (QN n / QN d) (p10 k)).
  rewrite <- Qdiv_ge by auto. rewrite Qmult_1_l. reflexivity.
Qed.

Lemma ndig_spec n : (n <> 0)%N -> (p10 (ndig n - 1) <= QN n)%Q /\ (QN n < p10 (ndig n))%Q.
Proof.
  intros Hn. unfold ndig.
  pose proof (dec_val n) as Hv. pose proof (dec_digits n) as Hd.
  pose proof (dec_nolead n Hn) as Hh. pose proof (dec_nonnil n).
  destruct (dec n) as [|c l] eqn:E; [congruence|]. clear E.
  pose proof (digits_val_bound _ Hd) as Hb. rewrite Hv in Hb.
  rewrite digits_val_cons in Hv. simpl in Hh. inversion_clear Hd.
  unfold is_digit in H0.
  assert (Hc : (1 <= c - 48)%N) by lia.
  pose proof (N.mul_le_mono_r 1 (c - 48) (10 ^ N.of_nat (length l)) Hc) as Hm.
  split.
  - replace (Z.of_nat (length (c :: l)) - 1)%Z with (Z.of_N (N.of_nat (length l))) by (simpl length; lia).
    rewrite p10_N, <- QN_le. lia.
  - replace (Z.of_nat (length (c :: l))) with (Z.of_N (N.of_nat (length (c :: l)))) by lia.
    rewrite p10_N, <- QN_lt. exact Hb.
Qed.

Lemma log10_spec n d : (d <> 0)%N -> (n <> 0)%N ->
  (p10 (log10 n d) <= QN n / QN d)%Q /\ (QN n / QN d < p10 (log10 n d + 1))%Q.
Proof.
  intros Hd Hn. unfold log10.
  destruct (ndig_spec n Hn) as [Hn1 Hn2]. destruct (ndig_spec d Hd) as [Hd1 Hd2].
  pose proof (QN_pos _ Hd) as Pd. pose proof (QN_pos _ Hn) as Pn.
  set (g := (ndig n - ndig d)%Z).
  pose proof (geb10_spec n d g Hd Hn) as Hg.
  destruct (geb10 n d g).
  - split; [tauto|].
    (* n/d < 10^(g+1) *)
    apply Qlt_shift_div_r; auto.
    apply Qlt_le_trans with (p10 (ndig n)); auto.
    replace (ndig n) with ((g + 1) + (ndig d - 1))%Z by (unfold g; lia).
    rewrite p10_plus.
    pose proof (p10_pos (g + 1)).
    apply Qmult_le_l; auto.
  - split.
    + apply Qdiv_ge; auto.
      apply Qle_trans with (p10 (ndig n - 1)); auto.
      replace (ndig n - 1)%Z with ((g - 1) + ndig d)%Z by (unfold g; lia).
      rewrite p10_plus. pose proof (p10_pos (g - 1)).
      apply Qmult_le_l; auto. lra.
    + replace (g - 1 + 1)%Z with g by lia.
      apply Qnot_le_lt. intros Hc. apply Hg in Hc. discriminate.
Qed.

Lemma round_he_spec n d : (d <> 0)%N ->
  let m := round_he n d in
  (2 * n <= 2 * (d * m) + d)%N /\ (2 * (d * m) <= 2 * n + d)%N.
Proof.
  intros Hd. cbn zeta. unfold round_he.
  pose proof (N.div_mod n d Hd). pose proof (N.mod_lt n d Hd).
  set (q := (n / d)%N) in *. set (r := (n mod d)%N) in *.
  destruct (N.compare_spec (2 * r) d); [destruct (N.even q)|..]; rewrite ?N.mul_add_distr_l; lia.
Qed.

Lemma round_he_mono n d a : (d <> 0)%N -> (a * d <= n)%N -> (a <= round_he n d)%N.
Proof.
  intros Hd H.
  assert (a <= n / d)%N.
  { apply N.div_le_lower_bound; auto. lia. }
  unfold round_he. destruct (2 * (n mod d) ?= d)%N; [destruct (N.even _)|..]; lia.
Qed.
Lemma round_he_ub n d a : (d <> 0)%N -> (n < a * d)%N -> (round_he n d <= a)%N.
Proof.
  intros Hd H.
  assert (n / d < a)%N.
  { apply N.div_lt_upper_bound; auto. lia. }
  unfold round_he. destruct (2 * (n mod d) ?= d)%N; [destruct (N.even _)|..]; lia.
Qed.

(** Everything about the six digits. *)
Lemma sig6_spec n d : (d <> 0)%N -> (n <> 0)%N ->
  let (m, X) := sig6 n d in
  exists e, (p10 e <= QN n / QN d)%Q /\ (QN n / QN d < p10 (e + 1))%Q /\
  (100000 <= m < 1000000)%N /\ (X = e \/ (X = e + 1 /\ m = 100000%N))%Z /\
  (Qabs (QN m * p10 (X - 5) - QN n / QN d) <= (1 # 2) * p10 (e - 5))%Q.
Proof.
  intros Hd Hn. unfold sig6.
  destruct (log10_spec n d Hd Hn) as [HL1 HL2].
  set (X := log10 n d) in *.
  pose proof (scale10_spec n d (5 - X) Hd) as Hs.
  destruct (scale10 n d (5 - X)) as [n' d'] eqn:Es. destruct Hs as [Hd' Hs].
  pose proof (QN_pos _ Hd') as Pd'.
  pose proof (p10_pos (5 - X)) as Pk.
  assert (H1 : (100000 * d' <= n')%N).
  { apply QN_le. rewrite QN_mul. apply Qdiv_ge; auto. rewrite Hs.
    apply Qle_trans with (p10 X * p10 (5 - X))%Q.
    - rewrite <- p10_plus. replace (X + (5 - X))%Z with 5%Z by lia. apply Qle_refl.
    - apply Qmult_le_r; auto. }
  assert (H2 : (n' < 1000000 * d')%N).
  { apply QN_lt. rewrite QN_mul. apply Qnot_le_lt. intros Hc.
    apply Qdiv_ge in Hc; auto. rewrite Hs in Hc.
    assert (QN n / QN d * p10 (5 - X) < p10 (X + 1) * p10 (5 - X))%Q.
    { apply Qmult_lt_r; auto. }
    rewrite <- p10_plus in H. replace (X + 1 + (5 - X))%Z with 6%Z in H by lia.
    change (p10 6) with (QN 1000000) in H. lra. }
  pose proof (round_he_mono n' d' 100000 Hd' H1) as Hm1.
  pose proof (round_he_ub n' d' 1000000 Hd' H2) as Hm2.
  destruct (round_he_spec n' d' Hd') as [Hr1 Hr2].
  set (m := round_he n' d') in *.
  assert (Hq : (QN n / QN d == (QN n' / QN d') * p10 (X - 5))%Q).
  { rewrite Hs. rewrite <- Qmult_assoc, <- p10_plus.
    replace (5 - X + (X - 5))%Z with 0%Z by lia. change (p10 0) with 1%Q. lra. }
  assert (He : (Qabs (QN m * p10 (X - 5) - QN n / QN d) <= (1 # 2) * p10 (X - 5))%Q).
  { rewrite Hq.
    assert (QN m * p10 (X - 5) - QN n' / QN d' * p10 (X - 5)
            == (QN m - QN n' / QN d') * p10 (X - 5))%Q as -> by ring.
    rewrite Qabs_Qmult, (Qabs_pos (p10 (X - 5))) by (pose proof (p10_pos (X-5)); lra).
    pose proof (p10_pos (X - 5)). apply Qmult_le_r; auto.
    apply Qabs_Qle_condition.
    apply QN_le in Hr1. apply QN_le in Hr2.
    rewrite QN_add, !QN_mul in Hr1, Hr2. change (QN 2) with 2%Q in *.
    split.
    - cut (QN n' / QN d' <= QN m + (1#2))%Q; [lra|]. apply Qdiv_le; auto. lra.
    - cut (QN m - (1#2) <= QN n' / QN d')%Q; [lra|]. apply Qdiv_ge; auto. lra. }
  destruct (N.eqb_spec m 1000000) as [Hm|Hm]; exists X.
  - repeat split; auto; try lia.
    rewrite Hm in He.
    assert (QN 100000 * p10 (X + 1 - 5) == QN 1000000 * p10 (X - 5))%Q as ->; auto.
    replace (X + 1 - 5)%Z with (1 + (X - 5))%Z by lia. rewrite p10_plus.
    change (p10 1) with 10%Q. change (QN 1000000) with 1000000%Q. change (QN 100000) with 100000%Q. ring.
  - repeat split; auto; lia.
Qed.

(** ** The text printed in fixed notation *)

Lemma strip0_app l : exists k, l = strip0 l ++ repeat 48%N k.
Proof.
  induction l as [|c l [k IH]]; [exists 0; reflexivity|]. simpl.
  destruct (strip0 l) as [|x r] eqn:E.
  - destruct (N.eqb_spec c 48) as [->|Hc].
    + exists (S k). simpl. rewrite IH at 1. reflexivity.
    + exists k. simpl. rewrite IH at 1. reflexivity.
  - exists k. simpl. rewrite IH at 1. reflexivity.
Qed.

Lemma digits_val_app2 a b :
  digits_val (a ++ b) = (digits_val a * 10 ^ N.of_nat (length b) + digits_val b)%N.
Proof.
  induction b as [|c b IH] using rev_ind.
  - rewrite app_nil_r. change (10 ^ N.of_nat (length (@nil N)))%N with 1%N.
    change (digits_val []) with 0%N. lia.
  - rewrite app_assoc, !digits_val_app, IH, app_length. simpl length.
    replace (N.of_nat (length b + 1)) with (N.succ (N.of_nat (length b))) by lia.
    rewrite N.pow_succ_r'. lia.
Qed.
Lemma digits_val_zeros k : digits_val (repeat 48%N k) = 0%N.
Proof. rewrite <- (app_nil_r (repeat 48%N k)), digits_val_repeat0. reflexivity. Qed.

Lemma split_dot_digits a b : all_digits a = true -> split_dot (a ++ 46%N :: b) = Some (a, b).
Proof.
  induction a as [|c a IH]; simpl; intros H; auto.
  apply andb_true_iff in H as [Hc H]. rewrite IH by auto.
  unfold is_digit in Hc. replace (c =? 46)%N with false by lia. reflexivity.
Qed.
Lemma all_digits_Forall l : all_digits l = true <-> Forall (fun c => is_digit c = true) l.
Proof. unfold all_digits. rewrite forallb_forall, Forall_forall. reflexivity. Qed.

Lemma unsign_digit c l : is_digit c = true -> unsign (c :: l) = (false, c :: l).
Proof.
  intros H. unfold is_digit in H. unfold unsign.
  assert (c <> 45%N /\ c <> 43%N) as [H1 H2] by lia.
  destruct c as [|p]; [lia|]. do 6 (destruct p as [p|p|]; auto; try lia).
Qed.

Definition neg_if (b : bool) (q : Q) : Q := if b then (- q)%Q else q.
Definition sign_if (b : bool) (l : bytes) : bytes := if b then 45%N :: l else l.

Lemma unsign_sign_if b c l : is_digit c = true -> unsign (sign_if b (c :: l)) = (b, c :: l).
Proof. intros H. destruct b; [reflexivity|]. apply unsign_digit; auto. Qed.

Lemma number_value_int b t : t <> [] -> all_digits t = true ->
  number_value (sign_if b t) = Some (inject_Z (if b then - Z.of_N (digits_val t) else Z.of_N (digits_val t))).
Proof.
  intros Hn Hd. destruct t as [|c t]; [congruence|].
  pose proof Hd as Hd'. simpl in Hd'. apply andb_true_iff in Hd' as [Hc _].
  unfold number_value, read_int. rewrite unsign_sign_if by auto. rewrite Hd. reflexivity.
Qed.

Lemma number_value_real b ip fp : ip <> [] -> all_digits ip = true -> all_digits fp = true ->
  number_value (sign_if b (ip ++ 46%N :: fp)) =
  Some (let v := (QN (digits_val (ip ++ fp)) / inject_Z (10 ^ Z.of_nat (length fp)))%Q in
        if b then (- v)%Q else v).
Proof.
  intros Hn Hi Hf.
  unfold number_value, read_int, read_real.
  destruct ip as [|c ip]; [congruence|]. rewrite <- app_comm_cons.
  pose proof Hi as Hi'. simpl in Hi'. apply andb_true_iff in Hi' as [Hc _].
  rewrite unsign_sign_if by auto.
  assert (Hna : all_digits (c :: ip ++ 46%N :: fp) = false).
  { unfold all_digits. rewrite app_comm_cons, forallb_app. simpl.
    replace (is_digit 46) with false by reflexivity. rewrite !andb_false_r. reflexivity. }
  rewrite Hna. rewrite app_comm_cons, split_dot_digits by auto.
  rewrite <- app_comm_cons.
  assert (Hall : all_digits (c :: ip ++ fp) = true).
  { rewrite app_comm_cons. unfold all_digits in *. rewrite forallb_app, Hi, Hf. reflexivity. }
  rewrite Hall. reflexivity.
Qed.

Lemma fmt_fixed_value b m k :
  exists v, number_value (sign_if b (fmt_fixed m k)) = Some v /\
            (v == neg_if b (QN m / QN (10 ^ N.of_nat k)))%Q.
Proof.
  unfold fmt_fixed, with_frac.
  set (P := (10 ^ N.of_nat k)%N).
  assert (HP : (P <> 0)%N) by (apply N.pow_nonzero; lia).
  pose proof (N.div_mod m P HP) as Hdm. pose proof (N.mod_lt m P HP) as Hlt.
  pose proof (QN_pos _ HP) as PP.
  pose proof (decpad_val k (m mod P)) as Hpv.
  pose proof (decpad_digits k (m mod P)) as Hpd.
  destruct (strip0_app (decpad k (m mod P))) as [j Hj].
  set (fp := strip0 (decpad k (m mod P))) in *.
  assert (Hlen : k = 0 \/ length (decpad k (m mod P)) = k).
  { destruct k; auto. right. apply decpad_length; auto. lia. }
  assert (Hfpd : all_digits fp = true).
  { apply all_digits_Forall. rewrite Hj in Hpd. apply Forall_app in Hpd. tauto. }
  assert (Hipd : all_digits (dec (m / P)) = true) by (apply all_digits_Forall, dec_digits).
  destruct fp as [|f fp'] eqn:Ef.
  - assert (m mod P = 0)%N.
    { rewrite <- Hpv, Hj. simpl. apply digits_val_zeros. }
    eexists. split; [apply number_value_int; auto; apply dec_nonnil|].
    rewrite dec_val.
    assert (QN m / QN P == QN (m / P))%Q as Hq.
    { rewrite Hdm at 1. rewrite H, N.add_0_r, QN_mul. field. lra. }
    destruct b; unfold neg_if; [rewrite inject_Z_opp|]; fold (QN (m / P)); rewrite Hq; reflexivity.
  - rewrite <- Ef in *. clear f fp' Ef.
    eexists. split.
    { apply number_value_real; auto. apply dec_nonnil. }
    cbn zeta.
    assert (Hv : (QN (digits_val (dec (m / P) ++ fp)) / inject_Z (10 ^ Z.of_nat (length fp))
                  == QN m / QN P)%Q).
    { destruct Hlen as [Hk|Hlen].
      { subst k. assert (m mod P = 0)%N.
        { unfold P. change (10 ^ N.of_nat 0)%N with 1%N. apply N.mod_1_r. }
        rewrite digits_val_app2.
        assert (Hz : (digits_val fp = 0)%N).
        { rewrite Hj, digits_val_app2, digits_val_zeros in Hpv.
          assert (10 ^ N.of_nat (length (repeat 48%N j)) <> 0)%N by (apply N.pow_nonzero; lia).
          destruct (N.eq_dec (digits_val fp) 0); auto. nia. }
        rewrite Hz, N.add_0_r, dec_val.
        replace (m / P)%N with m by (unfold P; change (10 ^ N.of_nat 0)%N with 1%N; symmetry; apply N.div_1_r).
        rewrite QN_mul.
        assert (HL : (inject_Z (10 ^ Z.of_nat (length fp)) = QN (10 ^ N.of_nat (length fp)))%Q).
        { unfold QN. f_equal. rewrite N2Z.inj_pow. f_equal. lia. }
        rewrite HL.
        assert (10 ^ N.of_nat (length fp) <> 0)%N as Hz2 by (apply N.pow_nonzero; lia).
        pose proof (QN_pos _ Hz2).
        unfold P. change (QN (10 ^ N.of_nat 0)) with 1%Q. field. lra. }
      assert (HL : (inject_Z (10 ^ Z.of_nat (length fp)) = QN (10 ^ N.of_nat (length fp)))%Q).
      { unfold QN. f_equal. rewrite N2Z.inj_pow. f_equal. lia. }
      rewrite HL.
      assert (Hz2 : (10 ^ N.of_nat (length fp) <> 0)%N) by (apply N.pow_nonzero; lia).
      assert (Hz3 : (10 ^ N.of_nat j <> 0)%N) by (apply N.pow_nonzero; lia).
      pose proof (QN_pos _ Hz2). pose proof (QN_pos _ Hz3).
      assert (HP2 : P = (10 ^ N.of_nat (length fp) * 10 ^ N.of_nat j)%N).
      { unfold P. rewrite <- N.pow_add_r. f_equal.
        rewrite Hj in Hlen at 1. rewrite app_length, repeat_length in Hlen. lia. }
      assert (Hm : m = (digits_val (dec (m / P) ++ fp) * 10 ^ N.of_nat j)%N).
      { rewrite Hdm at 1. rewrite digits_val_app2, dec_val.
        rewrite Hj, digits_val_app2, digits_val_zeros, repeat_length in Hpv.
        rewrite <- Hpv at 1. rewrite HP2 at 1. lia. }
      generalize dependent (digits_val (dec (m / P) ++ fp)). intros dv Hm.
      assert (HQm : (QN m == QN dv * QN (10 ^ N.of_nat j))%Q) by (rewrite <- QN_mul, <- Hm; reflexivity).
      assert (HQP : (QN P == QN (10 ^ N.of_nat (length fp)) * QN (10 ^ N.of_nat j))%Q)
        by (rewrite <- QN_mul, <- HP2; reflexivity).
      rewrite HQm, HQP. field. lra. }
    destruct b; unfold neg_if; rewrite Hv; reflexivity.
Qed.

Definition qsign (q : Q) : bool := match Qnum q with Zneg _ => true | _ => false end.

Lemma fmt_fixed_p10 m X : (-4 <= X < 6)%Z ->
  (QN m / QN (10 ^ N.of_nat (Z.to_nat (5 - X))) == QN m * p10 (X - 5))%Q.
Proof.
  intros H. rewrite <- p10_N.
  replace (Z.of_N (N.of_nat (Z.to_nat (5 - X)))) with (- (X - 5))%Z by lia.
  rewrite p10_opp. pose proof (p10_pos (X - 5)). field. lra.
Qed.

(** Without exponent, the token is a legal number with value [g_value]. *)
Lemma fmt_g_plain q : g_plain q = true ->
  exists v, number_value (fmt_g q) = Some v /\ (v == g_value q)%Q.
Proof.
  unfold g_plain, fmt_g, g_value. destruct (Qnum q) as [|p|p].
  - intros _. exists 0%Q. split; reflexivity.
  - unfold fmt_gpos. destruct (sig6 _ _) as [m X]. intros H.
    apply negb_true_iff in H. rewrite H.
    destruct (fmt_fixed_value false m (Z.to_nat (5 - X))) as (v & Hv & He).
    exists v. split; [exact Hv|]. rewrite He. simpl neg_if.
    rewrite fmt_fixed_p10 by lia. reflexivity.
  - unfold fmt_gpos. destruct (sig6 _ _) as [m X]. intros H.
    apply negb_true_iff in H. rewrite H.
    destruct (fmt_fixed_value true m (Z.to_nat (5 - X))) as (v & Hv & He).
    exists v. split; [exact Hv|]. rewrite He. simpl neg_if.
    rewrite fmt_fixed_p10 by lia. reflexivity.
Qed.

Lemma in_not_all_digits (c : N) l : In c l -> is_digit c = false -> all_digits l = false.
Proof.
  intros Hin Hc. destruct (all_digits l) eqn:E; auto.
  unfold all_digits in E. rewrite forallb_forall in E. rewrite E in Hc by auto. discriminate.
Qed.

Lemma split_dot_in l a b : split_dot l = Some (a, b) -> l = a ++ 46%N :: b.
Proof.
  revert a b; induction l as [|c l IH]; simpl; intros a b H; [discriminate|].
  destruct (N.eqb_spec c 46) as [->|]; [injection H as <- <-; reflexivity|].
  destruct (split_dot l) as [[a' b']|]; [|discriminate]. injection H as <- <-.
  simpl. f_equal. auto.
Qed.

Lemma not_number t : In 101%N (snd (unsign t)) -> number_value t = None.
Proof.
  intros H. unfold number_value, read_int, read_real.
  destruct (unsign t) as [ng d]. simpl in H.
  assert (all_digits d = false) by (apply in_not_all_digits with 101%N; auto).
  destruct d as [|c d]; [destruct H|]. rewrite H0.
  destruct (split_dot (c :: d)) as [[ip fp]|] eqn:E; auto.
  apply split_dot_in in E.
  assert (In 101%N (ip ++ fp)).
  { rewrite E in H. apply in_app_or in H as [H|[H|H]]; [| discriminate |]; apply in_or_app; auto. }
  assert (H2 : all_digits (ip ++ fp) = false) by (apply in_not_all_digits with 101%N; auto).
  destruct (ip ++ fp); auto. rewrite H2. reflexivity.
Qed.

Lemma fmt_exp_shape m X : exists c t, fmt_exp m X = c :: t /\ is_digit c = true /\ In 101%N t.
Proof.
  unfold fmt_exp, with_frac.
  pose proof (dec_nonnil (m / 100000)) as Hn. pose proof (dec_digits (m / 100000)) as Hd.
  destruct (dec (m / 100000)) as [|c l]; [congruence|]. inversion_clear Hd.
  destruct (strip0 _) as [|x f]; simpl; do 2 eexists; split; try reflexivity; split; auto.
  - apply in_or_app. right. left. reflexivity.
  - apply in_or_app. right. left. reflexivity.
Qed.

(** With exponent, the token is not a PDF number. *)
Lemma fmt_g_exp q : g_plain q = false -> number_value (fmt_g q) = None.
Proof.
  unfold g_plain, fmt_g. destruct (Qnum q) as [|p|p]; [discriminate|..];
    unfold fmt_gpos; destruct (sig6 _ _) as [m X]; intros H;
    apply negb_false_iff in H; rewrite H; apply not_number;
    destruct (fmt_exp_shape m X) as (c & t & -> & Hc & Hi).
  - rewrite unsign_digit by auto. right. auto.
  - right. auto.
Qed.

(** Accuracy: at most half a unit of the sixth significant digit. *)
Lemma g_value_err q : ~ (q == 0)%Q ->
  exists e, (p10 e <= Qabs q)%Q /\ (Qabs q < p10 (e + 1))%Q /\
            (Qabs (g_value q - q) <= (1 # 2) * p10 (e - 5))%Q.
Proof.
  intros Hq. destruct q as [n d]. unfold g_value. simpl Qnum. simpl Qden.
  assert (Hpq : forall p, (QN (N.pos p) / QN (N.pos d) == Z.pos p # d)%Q).
  { intros p. unfold QN. simpl Z.of_N. rewrite <- Qmake_Qdiv. reflexivity. }
  destruct n as [|p|p].
  - exfalso. apply Hq. reflexivity.
  - pose proof (sig6_spec (N.pos p) (N.pos d) ltac:(discriminate) ltac:(discriminate)) as H.
    destruct (sig6 _ _) as [m X]. destruct H as (e & H1 & H2 & _ & _ & H3).
    rewrite Hpq in H1, H2, H3. exists e.
    assert (Ha : (Qabs (Z.pos p # d) == Z.pos p # d)%Q) by (apply Qabs_pos; unfold Qle; simpl; lia).
    rewrite Ha. auto.
  - pose proof (sig6_spec (N.pos p) (N.pos d) ltac:(discriminate) ltac:(discriminate)) as H.
    destruct (sig6 _ _) as [m X]. destruct H as (e & H1 & H2 & _ & _ & H3).
    rewrite Hpq in H1, H2, H3. exists e.
    assert (Hs : (Z.neg p # d == - (Z.pos p # d))%Q) by reflexivity.
    rewrite Hs, Qabs_opp.
    assert (Ha : (Qabs (Z.pos p # d) == Z.pos p # d)%Q) by (apply Qabs_pos; unfold Qle; simpl; lia).
    rewrite Ha. split; [auto|]. split; [auto|].
    rewrite <- Qabs_opp.
    assert (Hr : (- (- (inject_Z (Z.of_N m) * p10 (X - 5)) - - (Z.pos p # d))
             == QN m * p10 (X - 5) - (Z.pos p # d))%Q) by (unfold QN; ring).
    rewrite Hr. auto.
Qed.

(** When is the notation plain?  Sufficient and necessary ranges. *)
Lemma g_plain_range q :
  (1 # 10000 <= Qabs q)%Q -> (Qabs q < 999999 + (1 # 2))%Q -> g_plain q = true.
Proof.
  intros Hlo Hhi. destruct q as [n d]. unfold g_plain. simpl Qnum. simpl Qden.
  assert (Hpq : forall p, (QN (N.pos p) / QN (N.pos d) == Z.pos p # d)%Q).
  { intros p. unfold QN. simpl Z.of_N. rewrite <- Qmake_Qdiv. reflexivity. }
  assert (HH : forall p, (1 # 10000 <= Z.pos p # d)%Q -> (Z.pos p # d < 999999 + (1#2))%Q ->
     (let (_, X) := sig6 (N.pos p) (N.pos d) in negb ((X <? -4) || (6 <=? X))%Z) = true).
  { intros p Hl Hh.
    pose proof (sig6_spec (N.pos p) (N.pos d) ltac:(discriminate) ltac:(discriminate)) as H.
    destruct (sig6 _ _) as [m X]. destruct H as (e & H1 & H2 & Hm & HX & H3).
    rewrite Hpq in H1, H2, H3.
    assert (p10 (-4) <= Z.pos p # d)%Q as Hl' by exact Hl.
    assert (-4 < e + 1)%Z. { apply p10_lt_inv. lra. }
    assert (e < 6)%Z.
    { apply p10_lt_inv. change (p10 6) with 1000000%Q. lra. }
    apply negb_true_iff. destruct HX as [->|[-> Hm2]]; [lia|].
    assert (e <> 5)%Z; [|lia].
    intros ->. rewrite Hm2 in H3. change (QN 100000) with 100000%Q in H3.
    change (p10 (5 + 1 - 5)) with 10%Q in H3. change (p10 (5 - 5)) with 1%Q in H3.
    apply Qabs_Qle_condition in H3. lra. }
  destruct n as [|p|p]; [reflexivity | apply HH; assumption | apply HH; assumption].
Qed.

Lemma g_not_plain_large q : (1000000 <= Qabs q)%Q -> g_plain q = false.
Proof.
  intros Hlo. destruct q as [n d]. unfold g_plain. simpl Qnum. simpl Qden.
  assert (Hpq : forall p, (QN (N.pos p) / QN (N.pos d) == Z.pos p # d)%Q).
  { intros p. unfold QN. simpl Z.of_N. rewrite <- Qmake_Qdiv. reflexivity. }
  assert (HH : forall p, (1000000 <= Z.pos p # d)%Q ->
     (let (_, X) := sig6 (N.pos p) (N.pos d) in negb ((X <? -4) || (6 <=? X))%Z) = false).
  { intros p Hl.
    pose proof (sig6_spec (N.pos p) (N.pos d) ltac:(discriminate) ltac:(discriminate)) as H.
    destruct (sig6 _ _) as [m X]. destruct H as (e & H1 & H2 & Hm & HX & H3).
    rewrite Hpq in H1, H2.
    assert (6 < e + 1)%Z. { apply p10_lt_inv. change (p10 6) with 1000000%Q. lra. }
    apply negb_false_iff. destruct HX as [->|[-> _]]; lia. }
  destruct n as [|p|p].
  - exfalso. assert (0 # d == 0)%Q by reflexivity. rewrite H in Hlo. simpl in Hlo. lra.
  - apply HH. rewrite Qabs_pos in Hlo; [auto | unfold Qle; simpl; lia].
  - apply HH. assert (Hs : (Z.neg p # d == - (Z.pos p # d))%Q) by reflexivity.
    rewrite Hs, Qabs_opp, Qabs_pos in Hlo; [auto | unfold Qle; simpl; lia].
Qed.
